(** Proofs for C66: saturated conditions. *)
From Coq Require Import List Arith Bool Lia Relations.
From Verif Require Import Prelude PreludeProofs RingSum SpaceModel SpaceSpec SpaceProofs MeshModel MeshSpec MeshProofs MeshProofs3 MeshMapModel MeshMapSpec MeshMapProofs MeshMapProofs2 MeshMapProofs3 NumModel NumSpec NumProofs NumProofs4 NumProofs5 NhtModel NhtProofs2
  AssembleModel GatherModel GatherSpec GatherProofs StrongModel StrongSpec StrongProofs StrongProofs2 StrongProofs3 StrongProofs4.
Import ListNotations.

Lemma on_side_spec p s x : on_side p s x = true <-> exists n, nth_error p (fst s) = Some n /\ nth_error x (fst s) = Some (false, if snd s then n else 0).
Proof.
  unfold on_side. destruct (nth_error x (fst s)) as [f|]; [|split; [discriminate|intros (n & _ & H); discriminate]]. destruct (nth_error p (fst s)) as [n|]; [|split; [discriminate|intros (n & H & _); discriminate]].
  unfold factor_eqb. destruct f as [b i]. cbn [fst snd]. split.
  - intros H. exists n. split; [reflexivity|]. apply andb_prop in H. destruct H as [H1 H2]. apply eqb_prop in H1. apply Nat.eqb_eq in H2. subst. reflexivity.
  - intros (n' & E & H). injection E as <-. injection H as -> ->. rewrite Nat.eqb_refl. reflexivity.
Qed.
(** sides have dofs *)
Lemma sides_nonempty k p s : length p = 3 -> Forall (fun n => 1 <= n) p -> fst s < 3 -> exists x, In x (cells p (types k 3)) /\ on_side p s x = true.
Proof.
  intros L3 Fp Hs. assert (TO := types_are_ok k p). rewrite L3 in TO.
  set (ax := fst s) in *. set (v := if snd s then nth ax p 0 else 0).
  set (t := match k with F0 => [false; false; false] | F1 => map (fun a => a =? (if ax =? 0 then 1 else 0)) (seq 0 3) | F2 => map (fun a => negb (a =? ax)) (seq 0 3) end).
  assert (Tin : In t (types k 3)).
  { unfold t. clearbody ax. destruct k; [left; reflexivity| |]; destruct ax as [|[|[|]]]; try lia; cbn; auto. }
  assert (Ta : nth ax t true = false) by (unfold t; clearbody ax; destruct k; destruct ax as [|[|[|]]]; try lia; reflexivity).
  assert (Tl : length t = 3) by (unfold t; destruct k; reflexivity).
  exists (map (fun a => (nth a t true, if a =? ax then v else 0)) (seq 0 3)). split.
  - apply (cell_axes p (types k 3)); [exact TO|]. split; [cbn; lia|]. split.
    + rewrite map_map. cbn [fst]. replace (map (fun x => nth x t true) (seq 0 3)) with t; [exact Tin|]. clear -Tl. destruct t as [|a [|b [|c [|]]]]; try discriminate. reflexivity.
    + intros a Ha. rewrite (nth_map_lt _ _ a (false, 0) 0) by (rewrite seq_length; lia). rewrite nth_seq0 by lia. unfold ok_factor. cbn [fst snd].
      assert (P : 1 <= nth a p 0) by (rewrite Forall_forall in Fp; apply Fp, nth_In; lia).
      destruct (nth a t true) eqn:E; destruct (a =? ax) eqn:E2; try lia; apply Nat.eqb_eq in E2; subst a; [congruence|]. unfold v. destruct (snd s); lia.
  - apply on_side_spec. exists (nth ax p 0). split; [apply nth_error_nth'; fold ax; lia|]. fold ax. rewrite nth_error_map. rewrite (nth_error_nth' (seq 0 3) 0) by (rewrite seq_length; exact Hs). cbn [option_map]. rewrite nth_seq0 by exact Hs. rewrite Nat.eqb_refl, Ta. reflexivity.
Qed.

(** numbers of cells and entries of gathering vectors *)
Lemma gv_in (g : GMat) r e v : gv_of g r e = Some v -> r < length g /\ In (e, v) (concat g).
Proof.
  unfold gv_of, gm_local. intros H. destruct (Nat.lt_ge_cases r (length g)) as [L|L]; [|rewrite nth_overflow in H by exact L; discriminate]. split; [exact L|].
  apply in_concat. exists (nth r g []). split; [apply nth_In; exact L|]. apply GatherProofs.lookup_In. exact H.
Qed.
(** an element is on one core *)
Lemma keys_eq {X Y} (a : list (list (nat * X))) : forall b : list (list (nat * Y)), map (map fst) a = map (map fst) b ->
  length a = length b /\ forall r, map fst (nth r a []) = match nth_error b r with Some m => map fst m | None => [] end.
Proof.
  induction a as [|x a IH]; intros [|y b] H; try discriminate.
  - split; [reflexivity|]. intros [|r]; reflexivity.
  - injection H as H1 H2. destruct (IH b H2) as (L & R). split; [cbn; lia|]. intros [|r]; [exact H1|]. apply R.
Qed.
Lemma map_fst_concat (ms : list emap) (gms : GMat) : map (map fst) gms = map (map fst) ms -> length gms = length ms /\ forall r, elements gms r = match nth_error ms r with Some m => map fst m | None => [] end.
Proof. intros E. exact (keys_eq gms ms E). Qed.

Section Sat.
  Variables (k : nform) (p : list nat) (ms : list emap) (N : nat) (g : GMat) (B : nat -> Prop).
  Hypothesis L3 : length p = 3.
  Hypothesis Fp : Forall (fun n => 1 <= n) p.
  Hypothesis KM : map fst (concat ms) = seq 0 N.
  Hypothesis KG : map (map fst) g = map (map fst) ms.
  Hypothesis TT : forall e v, In (e, v) (concat g) -> length v = length (cells p (types k 3)).
  Notation cs := (cells p (types k 3)).
  Variable D : nat -> list (nat * list nat).
  Hypothesis HD : forall r e d, r < length g -> (In d (dofs_at D r e) <-> boundary_dof p (types k 3) ms B r e d).

  Lemma cell_at r e v d n : gv_of g r e = Some v -> nth_error v d = Some n -> exists x, nth_error cs d = Some x /\ In x cs /\ numbered p (types k 3) (concat g) (e, x) n.
  Proof.
    intros Ev Ed. destruct (gv_in _ _ _ _ Ev) as (_ & Hin). assert (Hd : d < length cs) by (rewrite <- (TT _ _ Hin); apply nth_error_Some; rewrite Ed; discriminate).
    apply nth_error_Some in Hd. destruct (nth_error cs d) as [x|] eqn:Ex; [|congruence]. exists x. split; [reflexivity|]. split; [eapply nth_error_In; exact Ex|]. exists v, d. auto.
  Qed.
  Lemma elem_lt r e v : gv_of g r e = Some v -> e < N.
  Proof.
    intros Ev. destruct (gv_in _ _ _ _ Ev) as (_ & H). apply in_map with (f := fst) in H. rewrite concat_map, KG, <- concat_map, KM in H. apply in_seq in H. cbn in H. lia.
  Qed.
  Lemma row_of r e v : gv_of g r e = Some v -> exists m row, nth_error ms r = Some m /\ In (e, row) m /\ In (e, row) (concat ms).
  Proof.
    intros Ev. destruct (map_fst_concat ms g KG) as (LL & EE). assert (H : In e (elements g r)) by (apply GatherProofs.lookup_keys; eauto). rewrite EE in H. destruct (nth_error ms r) as [m|] eqn:Em; [|destruct H].
    apply in_map_iff in H. destruct H as ((e' & row) & <- & H). exists m, row. split; [reflexivity|]. split; [exact H|]. apply in_concat. exists m. split; [eapply nth_error_In; exact Em|exact H].
  Qed.
  Lemma row_unique e row row' : In (e, row) (concat ms) -> In (e, row') (concat ms) -> row = row'.
  Proof.
    intros H H'. assert (ND : NoDup (map fst (concat ms))) by (rewrite KM; apply seq_NoDup).
    apply GatherProofs.lookup_In_iff in H; [|exact ND]. apply GatherProofs.lookup_In_iff in H'; [|exact ND]. congruence.
  Qed.

  (** if cells with the same number are on the same boundary, then the condition is saturated *)
  Definition on_bd (e : nat) (x : SpaceSpec.cell) : Prop := exists (s : nat * bool) b row, fst s < 3 /\ In (e, row) (concat ms) /\ nth_error row (2 * fst s + (if snd s then 1 else 0)) = Some (Bd b) /\ B b /\ on_side p s x = true.
  Lemma bd_dof r e v d x : gv_of g r e = Some v -> nth_error cs d = Some x -> (In d (dofs_at D r e) <-> on_bd e x).
  Proof.
    intros Ev Ex. destruct (gv_in _ _ _ _ Ev) as (Hr & _). rewrite (HD r e d Hr). split.
    - intros (s & y & (G & m & row & b & Em & Hrow & Eb & Hb) & Ey & Ho). assert (y = x) by congruence. subst y. exists s, b, row. repeat split; auto. apply in_concat. exists m. split; [eapply nth_error_In; exact Em|exact Hrow].
    - intros (s & b & row & G & Hrow & Eb & Hb & Ho). destruct (row_of r e v Ev) as (m & row' & Em & Hm & Hm'). assert (row' = row) by (eapply row_unique; eassumption). subst row'.
      exists s, x. split; [|auto]. split; [exact G|]. exists m, row, b. auto.
  Qed.
  Lemma saturated_if : (forall e x e' x' n, e < N -> e' < N -> In x cs -> In x' cs -> numbered p (types k 3) (concat g) (e, x) n -> numbered p (types k 3) (concat g) (e', x') n -> on_bd e x -> on_bd e' x') ->
    saturated (length g) g D.
  Proof.
    intros H r e v d n Hr Ev Ed (r0 & e0 & v0 & d0 & Hr0 & Ev0 & Ed0 & In0).
    destruct (cell_at r e v d n Ev Ed) as (x & Ex & Hx & Nx). destruct (cell_at r0 e0 v0 d0 n Ev0 Ed0) as (x0 & Ex0 & Hx0 & Nx0).
    apply (bd_dof r e v d x Ev Ex). apply (H e0 x0 e x n); eauto using elem_lt. apply (bd_dof r0 e0 v0 d0 x0 Ev0 Ex0). exact In0.
  Qed.
  Lemma in_range_ok : (forall r, r < length g -> NoDup (map fst (D r)) /\ forall e, In e (map fst (D r)) -> exists m row, nth_error ms r = Some m /\ In (e, row) m) -> in_range (length g) g D.
  Proof.
    intros H r Hr. destruct (H r Hr) as (ND & HE). split; [exact ND|]. intros e l Hl. destruct (HE e ltac:(apply in_map with (f := fst) in Hl; exact Hl)) as (m & row & Em & Hrow).
    destruct (map_fst_concat ms g KG) as (LL & EE). assert (He : In e (elements g r)) by (rewrite EE, Em; apply in_map with (f := fst) in Hrow; exact Hrow).
    apply GatherProofs.lookup_keys in He. destruct He as (v & Ev). exists v. split; [exact Ev|]. apply Forall_forall. intros d Hd.
    assert (Hd' : In d (dofs_at D r e)) by (unfold dofs_at; apply GatherProofs.lookup_In_iff in Hl; [|exact ND]; rewrite Hl; exact Hd).
    apply HD in Hd'; [|exact Hr]. destruct Hd' as (s & x & _ & Ex & _). destruct (gv_in _ _ _ _ Ev) as (_ & Hin). rewrite (TT _ _ Hin). apply nth_error_Some. rewrite Ex. discriminate.
  Qed.

  (** hybrid forms *)
  Lemma sat_own : (forall e e' v v' i i' n, In (e, v) (concat g) -> In (e', v') (concat g) -> nth_error v i = Some n -> nth_error v' i' = Some n -> e = e' /\ i = i') -> saturated (length g) g D.
  Proof.
    intros H. apply saturated_if. intros e x e' x' n _ _ _ _ (v & i & Hv & Hi & Hn) (v' & i' & Hv' & Hi' & Hn') HB. cbn [fst snd] in *. destruct (H e e' v v' i i' n Hv Hv' Hn Hn') as (-> & ->). assert (x = x') by congruence. subst. exact HB.
  Qed.
  (** 2-forms: a face beside a boundary is in one element only *)
  Lemma touching_face ax up x y : k = F2 -> In x cs -> In y cs -> touching p ax up x y -> forall s, on_side p s x = true -> s = (ax, up).
  Proof.
    intros -> Hx Hy (T1 & T2 & T3) (ax', up') Ho. apply on_side_spec in Ho. cbn [fst snd] in Ho. destruct Ho as (n & En & Ex).
    assert (TO := types_are_ok F2 p). rewrite L3 in TO. apply (cell_axes p (types F2 3) x TO) in Hx. destruct Hx as (Lx & Tx & Ax).
    assert (Hax : ax < 3) by (rewrite <- L3, <- Lx; apply nth_error_Some; rewrite T1; discriminate). assert (Hax' : ax' < 3) by (rewrite <- L3; apply nth_error_Some; rewrite En; discriminate).
    assert (F1' : nth ax (map fst x) true = false). { erewrite nth_error_nth; [|rewrite nth_error_map, T1; reflexivity]. reflexivity. }
    assert (F2' : nth ax' (map fst x) true = false). { erewrite nth_error_nth; [|rewrite nth_error_map, Ex; reflexivity]. reflexivity. }
    assert (EA : ax' = ax). { cbn in Tx. destruct Tx as [Tx|[Tx|[Tx|[]]]]; rewrite <- Tx in F1', F2'; destruct ax as [|[|[|]]]; try lia; destruct ax' as [|[|[|]]]; try lia; cbn in F1', F2'; congruence. }
    subst ax'. f_equal. rewrite T1 in Ex. injection Ex as Ex. rewrite (nth_error_nth _ _ 0 En) in Ex. assert (1 <= n) by (rewrite Forall_forall in Fp; apply Fp; eapply nth_error_In; exact En). destruct up, up'; auto; lia.
  Qed.
  Lemma sat_faces : k = F2 -> (forall e row, In (e, row) (concat ms) -> length row = 6) -> 
    (forall e f ax up, nbr_of (concat ms) e ax up f -> nbr_of (concat ms) f ax (negb up) e) ->
    (forall a b n, cell_of p (types k 3) N a -> cell_of p (types k 3) N b -> numbered p (types k 3) (concat g) a n -> numbered p (types k 3) (concat g) b n -> identified p (types k 3) (nbr_of (concat ms)) N a b) ->
    saturated (length g) g D.
  Proof.
    intros Ek R6 SY SD. apply saturated_if. intros e x e' x' n He He' Hx Hx' Nx Nx' HB.
    assert (ID := SD (e, x) (e', x') n (conj He Hx) (conj He' Hx') Nx Nx').
    assert (G : forall a b, identified p (types k 3) (nbr_of (concat ms)) N a b -> (on_bd (fst a) (snd a) \/ on_bd (fst b) (snd b)) -> a = b).
    { intros a b R. assert (S1 : forall a b, cell_of p (types k 3) N a -> cell_of p (types k 3) N b -> glued p (nbr_of (concat ms)) a b -> ~ on_bd (fst a) (snd a) /\ ~ on_bd (fst b) (snd b)).
      { clear a b R. intros a b (Ha & Hxa) (Hb & Hxb) (ax & up & NB & TC). split.
        - intros (s & bb & row & G & Hrow & Eb & _ & Ho). rewrite (touching_face ax up _ _ Ek Hxa Hxb TC s Ho) in Eb. cbn [fst snd] in Eb. destruct NB as (row' & Hrow' & Er'). rewrite (row_unique _ _ _ Hrow Hrow') in Eb. congruence.
        - intros (s & bb & row & G & Hrow & Eb & _ & Ho). apply SY in NB. assert (TC' : touching p ax (negb up) (snd b) (snd a)).
          { destruct TC as (T1 & T2 & T3). split; [rewrite T2; destruct up; reflexivity|]. split; [rewrite T1; destruct up; reflexivity|]. intros c Hc. symmetry. apply T3. exact Hc. }
          rewrite (touching_face ax (negb up) _ _ Ek Hxb Hxa TC' s Ho) in Eb. cbn [fst snd] in Eb. destruct NB as (row' & Hrow' & Er'). rewrite (row_unique _ _ _ Hrow Hrow') in Eb. congruence. }
      induction R as [a b (Ca & Cb & Gl)|a|a b R IH|a b c R1 IH1 R2 IH2].
      - destruct (S1 a b Ca Cb Gl) as (N1 & N2). intros [H|H]; contradiction.
      - reflexivity.
      - intros H. symmetry. apply IH. tauto.
      - intros [H|H].
        + assert (E := IH1 (or_introl H)). subst b. apply IH2. left. exact H.
        + assert (E := IH2 (or_intror H)). subst c. apply IH1. right. exact H. }
    specialize (G _ _ ID (or_introl HB)). injection G as <- <-. exact HB.
  Qed.
End Sat.

(** * one region *)
Section SatBox.
  Context (corner : nat -> nat -> nat) (bnames : list nat) (bsides : list (nat * (nat * nat))) (m : rmap) (g : nat -> list nat -> nat) (lay : list nat) (sc : nat -> scheme).
  Context (bps : list (nat * nat)) (pairs : list ((nat * side) * (nat * side))).
  Context (HB : forall b, In b bnames -> 1 <= b) (HS : forall x, In x bsides -> In (fst x) bnames /\ snd (snd x) < 6).
  Context (E : region_map corner 1 bnames bsides = Some m).
  Context (L3 : length lay = 3) (HP1 : Forall (fun n => 1 <= n) lay).
  Context (HL : lens_ok (prodl lay) (sc 0)).
  Context (HP : boundary_pairs bsides bps = Some pairs).
  Notation lays := [lay].
  Notation num := (fun r => option_map fst (region_numbering g lays sc r)).
  Notation rm := (fun r i => name_of (m r i)).
  Context (SIZE : nat) (rs : list (list nat)) (ms : list emap) (PA : partition SIZE (prodl lay) rs)
          (HM : Forall2 (fun els mm => core_map num lays rm bnames pairs els = Some mm) rs ms).
  Context (per : nat -> bool) (HPer : forall a, a < 3 -> (per a = true <-> periodic_axis pairs a)).
  Lemma box_boundary : exists A para, region_numbering g lays sc 0 = Some (A, para) /\ bijective lay 0 (prodl lay) (at_ A) /\ map fst (concat ms) = seq 0 (prodl lay) /\
    (forall e row, In (e, row) (concat ms) -> length row = 6) /\
    forall idx ax up row b, Forall2 lt idx lay -> ax < 3 -> In (at_ A idx, row) (concat ms) ->
      (nth_error row (2 * ax + (if up : bool then 1 else 0)) = Some (Bd b) <-> extreme up (nth ax lay 0) (nth ax idx 0) /\ per ax = false /\ rm 0 (2 * ax + (if up then 1 else 0)) = Some b).
  Proof.
    destruct (one_box corner bnames bsides m g lay sc bps pairs HB HS E L3 HP1 HL HP SIZE rs ms PA HM per HPer) as (A & para & EA & BJ & _ & KK & L6 & BX).
    exists A, para. split; [exact EA|]. split; [exact BJ|]. split; [exact KK|]. split; [exact L6|].
    assert (H3 : Forall (fun lay => length lay = 3 /\ Forall (fun n => 1 <= n) lay) lays) by (constructor; auto).
    assert (HL' : forall r l, nth_error lays r = Some l -> lens_ok (prodl l) (sc r)) by (intros [|[|r]] l H; try discriminate; injection H as <-; exact HL).
    assert (SL : sum (map prodl lays) = prodl lay) by (cbn; lia). assert (PA' : partition SIZE (sum (map prodl lays)) rs) by (rewrite SL; exact PA).
    assert (ND := bsides_NoDup corner 1 bnames bsides HB HS m E).
    destruct (boundary_pairs_ok bsides bps pairs HP ND ltac:(intros x Hx; exact (proj2 (HS x Hx)))) as (_ & PB & _).
    assert (R0 : forall q r i, In q pairs -> In (r, i) (psides q) -> r = 0).
    { intros q r i Hq Hk. destruct (PB q r i Hq Hk) as (b & Hb). destruct (map_boundary corner 1 bnames bsides HB HS m E b r i Hb) as (Z & _). lia. }
    assert (EQ : forall r1 s1 r2 s2, In ((r1, s1), (r2, s2)) pairs -> forall a, a <> fst s1 -> nth a (nth r1 lays []) 0 = nth a (nth r2 lays []) 0).
    { intros r1 s1 r2 s2 Hq a _. assert (Z1 := R0 _ r1 _ Hq ltac:(left; reflexivity)). assert (Z2 := R0 _ r2 _ Hq ltac:(right; left; reflexivity)). rewrite Z1, Z2. reflexivity. }
    assert (WH := mesh_where corner bnames bsides m g lays sc bps pairs HB HS E H3 HL' HP SIZE rs ms PA' HM EQ).
    assert (LC : forall e r idx, located num lays e r idx -> r = 0 /\ Forall2 lt idx lay /\ at_ A idx = e).
    { intros e r idx (l & a & N1 & N2 & N3 & N4). destruct r as [|[|r]]; try discriminate. injection N1 as <-. rewrite EA in N2. cbn in N2. injection N2 as <-. auto. }
    intros idx ax up row b F Ha Hr. destruct (WH _ row ax up Hr Ha) as (r & idx0 & Lo & v & Ev & C). apply LC in Lo. destruct Lo as (-> & F0 & E0). assert (idx0 = idx) by (destruct BJ as (_ & _ & B3); apply B3; auto). subst idx0. cbn [nth] in C.
    split.
    - intros Eb. assert (v = Bd b) by congruence. subst v. destruct C as (X & Y & _ & NP). split; [exact X|]. split; [|exact Y]. destruct (per ax) eqn:P; [|reflexivity]. exfalso. apply HPer in P; [|exact Ha]. destruct P as (q & Hq & Q). apply (NP q Hq). destruct Q as [-> | ->]; destruct up; cbn [In]; rewrite ?Nat.add_0_r; auto.
    - intros (X & P & Y). rewrite Ev. f_equal. destruct v as [f|b'].
      + exfalso. assert (NB : nbr_of (concat ms) (at_ A idx) ax up f) by (exists row; auto). apply (BX idx ax up f F Ha) in NB. destruct NB as (idx' & F' & _ & (_ & _ & [M|(P' & _)])); [|congruence].
        assert (Z := F2_lt_nth _ _ ax F' ltac:(lia)). unfold moved, extreme in *. destruct up; lia.
      + destruct C as (_ & Y' & _). congruence.
  Qed.
  Context (k : nform) (p : list nat) (Hp3 : length p = 3) (Hp : Forall (fun n => 1 <= n) p) (H2 : forall a, a < 3 -> periodic_axis pairs a -> 2 <= nth a lay 0).
  Lemma sat_box (B : nat -> Prop) (gms : GMat) (D : nat -> list (nat * list nat)) : naive k p ms = Some gms ->
    (forall r e d, r < length gms -> (In d (dofs_at D r e) <-> boundary_dof p (types k 3) ms B r e d)) -> saturated (length gms) gms D.
  Proof.
    intros EG HD. destruct (one_region corner bnames bsides m g lay sc bps pairs HB HS E L3 HP1 HL HP SIZE rs ms PA HM per HPer k p Hp3 Hp H2) as (A & para & gms' & EA & EG' & KM & TT & _ & CC).
    assert (gms' = gms) by congruence. subst gms'. destruct box_boundary as (A' & para' & EA' & BJ & KK & L6 & BB). assert (A' = A) by congruence. subst A'.
    apply (saturated_if k p ms (prodl lay) gms B Hp3 KK KM (proj2 TT) D HD).
    intros e x e' x' n He He' Hx Hx' Nx Nx' (s & b & row & G & Hrow & Eb & Hb & Ho).
    assert (SB := proj1 (CC (e, x) (e', x') n n (conj He Hx) (conj He' Hx') Nx Nx') eq_refl). destruct SB as (idx & idx' & F & F' & Ee & Ee' & EQ). cbn [fst snd] in *. subst e e'.
    apply (BB idx (fst s) (snd s) row b F G) in Eb; [|exact Hrow]. destruct Eb as (X & P & Y).
    assert (TO := types_are_ok k p). rewrite Hp3 in TO. pose proof (proj1 (cell_axes p _ x TO) Hx) as (Lx & Tx & Ax). pose proof (proj1 (cell_axes p _ x' TO) Hx') as (Lx' & Tx' & Ax').
    apply on_side_spec in Ho. destruct Ho as (q & Eq & Ex). assert (EN := f_equal (fun l => nth (fst s) l (false, 0)) EQ). cbv beta in EN.
    rewrite !box_cell_nth in EN by lia. rewrite (nth_error_nth _ _ (false, 0) Ex) in EN. cbn [fst snd] in EN. rewrite P, (nth_error_nth _ _ 0 Eq) in EN. unfold coord in EN.
    assert (Hq : 1 <= q) by (rewrite Forall_forall in Hp; apply Hp; eapply nth_error_In; exact Eq).
    specialize (Ax' (fst s) ltac:(lia)). rewrite (nth_error_nth _ _ 0 Eq) in Ax'. destruct (nth (fst s) x' (false, 0)) as (f & i) eqn:Ef. cbn [fst snd] in EN. injection EN as Ef0 EN. subst f. unfold ok_factor in Ax'. cbn [fst snd] in Ax'.
    assert (Fi := F2_lt_nth _ _ (fst s) F ltac:(lia)). assert (Fi' := F2_lt_nth _ _ (fst s) F' ltac:(lia)).
    assert (Z : extreme (snd s) (nth (fst s) lay 0) (nth (fst s) idx' 0) /\ i = if snd s then q else 0).
    { unfold extreme in *. destruct (snd s); [|nia]. assert (nth (fst s) idx' 0 + 1 = nth (fst s) lay 0) by nia. split; [lia|nia]. }
    destruct Z as (Z1 & Z2). assert (IK : In (at_ A idx') (map fst (concat ms))) by (rewrite KK; apply in_seq; lia). apply in_map_iff in IK. destruct IK as ((e0 & row') & Ee0 & Hrow'). cbn [fst] in Ee0. subst e0.
    exists s, b, row'. split; [exact G|]. split; [exact Hrow'|]. split; [apply (BB idx' (fst s) (snd s) row' b F' G Hrow'); auto|]. split; [exact Hb|].
    apply on_side_spec. exists q. split; [exact Eq|]. rewrite (nth_error_nth' x' (false, 0)) by lia. rewrite Ef, Z2. reflexivity.
  Qed.
End SatBox.
