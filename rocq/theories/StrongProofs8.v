(** Proofs for C66: from the boundary condition to the solutions of the system. *)
From Coq Require Import List Arith ZArith Bool Lia.
From Verif Require Import Prelude RingSum SpaceSpec MeshMapModel NumModel NumSpec NhtModel AssembleModel GatherModel GatherSpec EwcModel AsmModel AsmSpec StrongModel StrongSpec StrongProofs3 StrongProofs6 StrongProofs7.
Import ListNotations.

Lemma solves_with_ext (K : CRing) N o (P Q : nat -> Prop) (w : nat -> K) A b x : (forall n, P n <-> Q n) -> (solves_with N o P w A b x <-> solves_with N o Q w A b x).
Proof.
  intros E. unfold solves_with. split; intros (H1 & H2); (split; [intros n Hn; apply H1; apply E; exact Hn|]); intros a Ha Hn; apply (H2 a Ha); intros n Pn; apply Hn; apply E; exact Pn.
Qed.
Lemma strong_condition (K : CRing) (INJ : n_times_injective K) (I J : nat) gms ns i (g : GMat) (WN : well_numbered (length g) gms ns) (RG : forall g, In g gms -> regular g)
  (Hi : nth_error gms i = Some g) (HI : i < I) (HJ : i < J) k p (ms : list emap) q iEPs (lcs : nat -> local_cochain K) (wl : nat -> nat -> nat -> K) (w : nat -> K) :
  length p = 3 -> Forall (fun n => 1 <= n) p ->
  (forall r iEP, nth_error iEPs r = Some iEP -> forall e s, In (e, s) iEP <-> beside_boundary ms (asked q) r e s) -> ready k p ms q iEPs g ->
  (forall r iEP D, nth_error iEPs r = Some iEP -> parse_dofs (local_side k p) iEP = Some D -> carries (local_side k p) D iEP (wl r) (lcs r)) ->
  (forall r e v d n, gv_of g r e = Some v -> nth_error v d = Some n -> wl r e d = w n) ->
  exists it : nat -> itp K,
    (forall r, r < length g -> exists iEP c, nth_error iEPs r = Some iEP /\ parse_dofs (local_side k p) iEP = Some (i_dofs (it r)) /\
       i_cochains (it r) = Some c /\ parse_cochains K (i_dofs (it r)) iEP (lcs r) = Some c) /\
    forall Ac bc, exists Ac' bc', apply_strong_BC K (length g) I J gms gms gms i i it None Ac bc = Some (Ac', bc') /\
    forall Ab Bb A b, sizes_match K (length g) gms gms Ab -> vsizes_match K (length g) gms Bb -> assembled K (length g) gms gms Ab Ac A -> vassembled K (length g) gms Bb bc b ->
    exists A' b', assembled K (length g) gms gms Ab Ac' A' /\ vassembled K (length g) gms Bb bc' b' /\
      forall x, solves K (sum ns) A' b' x <-> solves_with (sum ns) (sum (firstn i ns)) (fun n => exists r e v d, gv_of g r e = Some v /\ nth_error v d = Some n /\ boundary_dof p (cell_types k) ms (asked q) r e d) w A b x.
Proof.
  intros L3 Fp HP (D & HD & HR & HS & HB) HC HW.
  destruct (values_all K k p ms q iEPs g D lcs wl w L3 Fp HP HD) as (C & HC1 & HC2 & HC3); [|exact HW|].
  { intros r iEP Hr Er. destruct (HD r Hr) as (iEP' & E1 & E2). exact (HC r iEP (D r) Er (eq_trans (f_equal (parse_dofs (local_side k p)) (f_equal (fun o => match o with Some z => z | None => [] end) (eq_trans (eq_sym Er) E1))) E2)). }
  exists (fun r => mkI (D r) (Some (C r))). cbn [i_dofs i_cochains]. split.
  { intros r Hr. destruct (HD r Hr) as (iEP & E1 & E2). destruct (HC1 r Hr) as (iEP' & E3 & E4). assert (Z : iEP' = iEP) by exact (f_equal (fun o => match o with Some z => z | None => [] end) (eq_trans (eq_sym E3) E1)). subst iEP'. exists iEP, (C r). auto. }
  intros Ac bc. destruct (strong_solution K INJ (length g) I J gms ns WN RG i g Hi HI HJ (fun r => mkI (D r) (Some (C r))) w HR HC2 HS HC3 Ac bc) as (Ac' & bc' & E & H).
  exists Ac', bc'. split; [exact E|]. intros Ab Bb A b H1 H2 H3 H4. destruct (H Ab Bb A b H1 H2 H3 H4) as (A' & b' & G1 & G2 & G3). exists A', b'. split; [exact G1|]. split; [exact G2|].
  intros x. rewrite (G3 x). apply solves_with_ext. intros n. split.
  - intros (r & e & v & d & Hr & Ev & En & Hd). exists r, e, v, d. split; [exact Ev|]. split; [exact En|]. apply (HB r e d Hr). exact Hd.
  - intros (r & e & v & d & Ev & En & Hd). assert (Hr : r < length g) by (apply (StrongProofs5.gv_in g r e v Ev)). exists r, e, v, d. split; [exact Hr|]. split; [exact Ev|]. split; [exact En|]. apply (HB r e d Hr). exact Hd.
Qed.
Lemma parts_ok tuple bnames ms q : (forall l x, In x (tuple l) <-> In x l) -> (forall e row, In (e, row) (concat ms) -> length row = 6) -> forall iEPs, involved_parts tuple bnames ms q = Some iEPs ->
  length iEPs = length ms /\ forall r iEP, nth_error iEPs r = Some iEP -> forall e s, In (e, s) iEP <-> beside_boundary ms (asked q) r e s.
Proof. intros TP L. exact (proj2 (StrongProofs4.involved_ok tuple bnames ms q TP L)). Qed.

Lemma ready_box' corner bnames bsides m g lay sc bps pairs :
  (forall b, In b bnames -> 1 <= b) -> (forall x, In x bsides -> In (fst x) bnames /\ snd (snd x) < 6) -> region_map corner 1 bnames bsides = Some m ->
  length lay = 3 -> Forall (fun n => 1 <= n) lay -> MeshProofs.lens_ok (SpaceModel.prodl lay) (sc 0) -> boundary_pairs bsides bps = Some pairs ->
  let num r := option_map fst (MeshModel.region_numbering g [lay] sc r) in let rm r i := name_of (m r i) in
  forall SIZE rs ms, MeshSpec.partition SIZE (SpaceModel.prodl lay) rs -> Forall2 (fun els mm => core_map num [lay] rm bnames pairs els = Some mm) rs ms ->
  forall k p, length p = 3 -> Forall (fun n => 1 <= n) p -> (forall a, a < 3 -> periodic_axis pairs a -> 2 <= nth a lay 0) ->
  forall tuple q, (forall l x, In x (tuple l) <-> In x l) ->
  exists gms, naive k p ms = Some gms /\ forall iEPs, involved_parts tuple bnames ms q = Some iEPs -> ready k p ms q iEPs gms.
Proof.
  intros HB HS E L3 HP1 HL HP num rm SIZE rs ms PA HM k p Hp3 Hp H2 tuple q TP.
  exact (ready_box corner bnames bsides m g lay sc bps pairs HB HS E L3 HP1 HL HP SIZE rs ms PA HM k p Hp3 Hp H2 (fun a _ => periodic_dec pairs a) tuple q TP).
Qed.
Lemma nmul_Z m a : nmul (K := ZR) m a = (BinInt.Z.of_nat m * a)%Z.
Proof. induction m as [|m IH]; [reflexivity|]. cbn [nmul]. rewrite IH. change (radd a (BinInt.Z.of_nat m * a)%Z) with (a + BinInt.Z.of_nat m * a)%Z. rewrite Znat.Nat2Z.inj_succ. lia. Qed.
Lemma injective_Z : n_times_injective ZR.
Proof. intros m a b H. rewrite !nmul_Z in H. assert (Z : (BinInt.Z.of_nat (S m) <> 0)%Z) by lia. exact (BinInt.Z.mul_reg_l _ _ _ Z H). Qed.
