From Coq Require Import List Arith ZArith Bool Lia.
From Verif Require Import Prelude RingSum TriModel TriSpec TriProofs TriProofs2 TriProofs3 TriProofs4 TriProofs5 TriProofs6.
Import ListNotations.

(* ---------- columns of E1 ---------- *)
Definition facen (p i j : nat) : nat := Z.to_nat (tln2 p i j).
Lemma E1_col o p e : edge_ok p e ->
  zsum (tnb2 p) (fun r => tE1 o p r (Z.to_nat (dofe o p e))) =
  match e with
  | Dy i j => ((if Nat.eqb i 0 then 0 else 1) - (if Nat.eqb i p then 0 else 1))%Z
  | Dx i j => (sgn1 o * (1 - (if Nat.eqb j p then 0 else 1)))%Z
  end.
Proof.
  intros He. destruct (numbers_face p) as (RF & IF & SF).
  assert (DF : forall i j i' j', i < p -> j < p -> i' < p -> j' < p ->
    dirac (Nat.eqb (facen p i j) (facen p i' j')) = if ((i =? i') && (j =? j'))%bool then 1%Z else 0%Z).
  { intros i j i' j' Hi Hj Hi' Hj'. pose proof (RF (i, j) (conj Hi Hj)) as B1. pose proof (RF (i', j') (conj Hi' Hj')) as B2.
    cbn [fst snd] in *. unfold dirac, facen. destruct (Nat.eqb_spec (Z.to_nat (tln2 p i j)) (Z.to_nat (tln2 p i' j'))) as [E|E].
    - assert ((i, j) = (i', j')) as EE by (apply IF; cbn [fst snd]; auto; lia). injection EE as -> ->. rewrite !Nat.eqb_refl. reflexivity.
    - destruct (Nat.eqb_spec i i') as [->|], (Nat.eqb_spec j j') as [->|]; try reflexivity. congruence. }
  assert (PK : forall i j (b : bool), (b = false -> i < p /\ j < p) ->
    zsum (tnb2 p) (fun r => if b then 0%Z else (dirac (Nat.eqb r (facen p i j)) * 1)%Z) = if b then 0%Z else 1%Z).
  { intros i j b H. destruct b; [apply (bsum_0 ZR); reflexivity|]. destruct (H eq_refl) as [Hi Hj].
    pose proof (RF (i, j) (conj Hi Hj)). cbn [fst snd] in *. rewrite zsum_pick; [reflexivity|unfold facen; lia]. }
  destruct e as [i j|i j]; cbn [edge_ok] in He.
  - transitivity (zsum (tnb2 p) (fun r => (sgn1 o * ((if false then 0 else dirac (Nat.eqb r (facen p i (j - 1))) * 1) -
        (if Nat.eqb j p then 0 else dirac (Nat.eqb r (facen p i j)) * 1)))%Z)).
    + apply zsum_ext. intros r Hr. destruct (SF r Hr) as ([x y] & [Hx Hy] & E). cbn [fst snd] in *.
      replace r with (facen p x y) by (unfold facen; lia). unfold facen at 1. rewrite E1_ok by (cbn; lia).
      unfold d_edge. fold (sgn1 o). rewrite DF by lia. cbn [tedge_eqb dirac].
      destruct (Nat.eqb_spec j p) as [->|N].
      * unfold dirac. destruct (Nat.eqb_spec i x), (Nat.eqb_spec x i), (Nat.eqb_spec p (y + 1)), (Nat.eqb_spec y (p - 1)), (Nat.eqb_spec p y); cbn [andb]; try lia; ring.
      * rewrite DF by lia. unfold dirac. destruct (Nat.eqb_spec i x), (Nat.eqb_spec x i), (Nat.eqb_spec j (y + 1)), (Nat.eqb_spec y (j - 1)), (Nat.eqb_spec j y), (Nat.eqb_spec y j); cbn [andb]; try lia; ring.
    + rewrite zsum_mul, zsum_minus. f_equal. f_equal; [apply (PK i (j - 1) false)|apply (PK i j (j =? p))]; intros H; try apply Nat.eqb_neq in H; lia.
  - transitivity (zsum (tnb2 p) (fun r => ((if Nat.eqb i 0 then 0 else dirac (Nat.eqb r (facen p (i - 1) j)) * 1) -
        (if Nat.eqb i p then 0 else dirac (Nat.eqb r (facen p i j)) * 1))%Z)).
    + apply zsum_ext. intros r Hr. destruct (SF r Hr) as ([x y] & [Hx Hy] & E). cbn [fst snd] in *.
      replace r with (facen p x y) by (unfold facen; lia). unfold facen at 1. rewrite E1_ok by (cbn; lia).
      unfold d_edge. fold (sgn1 o). cbn [tedge_eqb].
      destruct (Nat.eqb_spec i 0) as [->|N0].
      * destruct (Nat.eqb_spec 0 p) as [Ep|Np]; [lia|]. rewrite DF by lia. unfold dirac.
        destruct (Nat.eqb_spec 0 (x + 1)), (Nat.eqb_spec 0 x), (Nat.eqb_spec x 0), (Nat.eqb_spec j y), (Nat.eqb_spec y j); cbn [andb]; try lia; ring.
      * rewrite DF by lia. destruct (Nat.eqb_spec i p) as [->|Np].
        -- unfold dirac. destruct (Nat.eqb_spec p (x + 1)), (Nat.eqb_spec x (p - 1)), (Nat.eqb_spec p x), (Nat.eqb_spec j y), (Nat.eqb_spec y j); cbn [andb]; try lia; ring.
        -- rewrite DF by lia. unfold dirac. destruct (Nat.eqb_spec i (x + 1)), (Nat.eqb_spec x (i - 1)), (Nat.eqb_spec i x), (Nat.eqb_spec x i), (Nat.eqb_spec j y), (Nat.eqb_spec y j); cbn [andb]; try lia; ring.
    + rewrite zsum_minus. f_equal; [apply (PK (i - 1) j (i =? 0))|apply (PK i j (i =? p))]; intros H; apply Nat.eqb_neq in H; lia.
Qed.
Lemma E1_col_on o p m k : 1 <= p -> m < 3 -> k < p ->
  zsum (tnb2 p) (fun r => tE1 o p r (Z.to_nat (dofe o p (epos1 p m k)))) = (match o with Outer => out m | Inner => turn m end).
Proof.
  intros Hp Hm Hk. rewrite E1_col by (apply epos1_sel; assumption).
  assert (p =? 0 = false) as E0 by (apply Nat.eqb_neq; lia). assert (0 =? p = false) as E1 by (apply Nat.eqb_neq; lia).
  three m; cbn [epos1]; rewrite ?E0, ?E1, ?Nat.eqb_refl; destruct o; reflexivity.
Qed.
Lemma E1_col_in o p e : 1 <= p -> edge_ok p e -> (forall m, m < 3 -> ~ on_edge p m e) ->
  zsum (tnb2 p) (fun r => tE1 o p r (Z.to_nat (dofe o p e))) = 0%Z.
Proof.
  intros Hp He N. rewrite E1_col by exact He. destruct e as [i j|i j].
  - destruct (Nat.eqb_spec j p) as [->|]; [|ring]. destruct (N 2 ltac:(lia)). reflexivity.
  - destruct (Nat.eqb_spec i p) as [->|]; [destruct (N 0 ltac:(lia)); reflexivity|].
    destruct (Nat.eqb_spec i 0) as [->|]; [destruct (N 1 ltac:(lia)); reflexivity|reflexivity].
Qed.
Lemma dd_zero o p M c r q : r < tnb2 p -> q < tnb0 p ->
  zsum (tnb1 p) (fun k => (incidence1 o p M c r k * incidence0 o p M c k q)%Z) = 0%Z.
Proof.
  intros Hr Hq. rewrite <- (E1E0_entry o p r q Hr Hq). apply zsum_ext. intros k _. unfold incidence0, incidence1.
  replace (tE1 o p r k * transition o p M c k * (transition o p M c k * tE0 o p k q))%Z
    with (transition o p M c k * transition o p M c k * (tE1 o p r k * tE0 o p k q))%Z by ring.
  rewrite transition_sq. ring.
Qed.
Lemma colsum_eq o p M c k : colsum o p M c k = (transition o p M c k * zsum (tnb2 p) (fun r => tE1 o p r k))%Z.
Proof. unfold colsum, incidence1. fold (zsum (tnb2 p) (fun r => (tE1 o p r k * transition o p M c k)%Z)). rewrite <- zsum_mul. apply zsum_ext. intros. ring. Qed.

(* ---------- gap free numberings that tell the places apart, as gathering vectors ---------- *)
Section Final.
  Variables (conds : list (nat * (point -> bool))) (pts : list point) (cells0 cells : list tri) (M : smap) (p : nat).
  Hypothesis HE : make_mesh conds pts cells0 = Some (cells, M).
  Hypothesis HO : no_overlap pts cells.
  Hypothesis Hp : 1 <= p.
  Let N := length cells.
  Let HK : mesh_ok pts cells := made_mesh conds pts cells0 cells M HE HO.
  Let HM : manifold cells := proj1 (made_manifold conds pts cells0 cells M HE HO).
  Let HD : describes cells M := proj1 (made_describes conds pts cells0 cells M HE HO).
  Lemma final0 : exists A n, numbering0 p cells M = Some (A, n) /\ length A = N /\
    (forall c, c < N -> length (gathering0 p (nth c A ones2)) = tnb0 p) /\
    (forall c m, c < N -> node_ok p m -> (0 <= num0 p A c (Z.to_nat (dofn p m)) < Z.of_nat n)%Z) /\
    (forall c m c' m', c < N -> c' < N -> node_ok p m -> node_ok p m' ->
      (num0 p A c (Z.to_nat (dofn p m)) = num0 p A c' (Z.to_nat (dofn p m')) <-> whn p cells c m = whn p cells c' m')) /\
    (forall k, k < n -> exists c m, c < N /\ node_ok p m /\ num0 p A c (Z.to_nat (dofn p m)) = Z.of_nat k).
  Proof.
    destruct (numbering0_ok p cells M Hp HM HD) as (A & n & E & L & R & J & S). exists A, n.
    split; [exact E|]. split; [exact L|]. split; [intros; apply gathering0_len|].
    assert (W : forall c m, node_ok p m -> exists i j, i <= p /\ j <= p /\ node_at i j = m /\ num0 p A c (Z.to_nat (dofn p m)) = nth c A ones2 i j /\ whn p cells c m = where0 p cells c i j).
    { intros c m Hm. unfold num0. rewrite gathering0_at by exact Hm. destruct m as [|i j]; cbn [node_ok] in Hm.
      - exists 0, 0. repeat split; lia.
      - exists i, j. destruct j; [lia|]. repeat split; lia. }
    split; [|split].
    - intros c m Hc Hm. destruct (W c m Hm) as (i & j & Hi & Hj & _ & -> & _). apply R; assumption.
    - intros c m c' m' Hc Hc' Hm Hm'. destruct (W c m Hm) as (i & j & Hi & Hj & _ & -> & ->).
      destruct (W c' m' Hm') as (i' & j' & Hi' & Hj' & _ & -> & ->). apply J; assumption.
    - intros k Hk. destruct (S k Hk) as (c & i & j & Hc & Hi & Hj & Ek). exists c, (node_at i j).
      assert (Hm : node_ok p (node_at i j)) by (destruct j; cbn; lia).
      split; [exact Hc|]. split; [exact Hm|]. destruct (W c _ Hm) as (i' & j' & Hi' & Hj' & En & -> & W').
      rewrite <- Ek. apply J; auto. rewrite <- W'. apply whn_at.
  Qed.
  Lemma final1 o : exists A n, numbering1 o p M = Some (A, n) /\ length A = N /\
    (forall c, c < N -> length (gathering1 o p (nth c A (ones2, ones2))) = tnb1 p) /\
    (forall c e, c < N -> edge_ok p e -> (0 <= num1 o p A c (Z.to_nat (dofe o p e)) < Z.of_nat n)%Z) /\
    (forall c e c' e', c < N -> c' < N -> edge_ok p e -> edge_ok p e' ->
      (num1 o p A c (Z.to_nat (dofe o p e)) = num1 o p A c' (Z.to_nat (dofe o p e')) <-> where1 p cells c e = where1 p cells c' e')) /\
    (forall k, k < n -> exists c e, c < N /\ edge_ok p e /\ num1 o p A c (Z.to_nat (dofe o p e)) = Z.of_nat k).
  Proof.
    destruct (numbering1_ok o p cells M Hp HM HD) as (A & n & E & L & R & J & S). exists A, n.
    split; [exact E|]. split; [exact L|]. split; [intros; apply gathering1_len|]. unfold num1.
    split; [|split].
    - intros c e Hc He. rewrite gathering1_at by exact He. apply R; assumption.
    - intros c e c' e' Hc Hc' He He'. rewrite !gathering1_at by assumption. apply J; assumption.
    - intros k Hk. destruct (S k Hk) as (c & e & Hc & He & Ek). exists c, e. split; [exact Hc|]. split; [exact He|].
      rewrite gathering1_at by exact He. exact Ek.
  Qed.
  Lemma coboundary_final o A0 n0 A1 n1 (x : Z -> Z) c r c' r' :
    numbering0 p cells M = Some (A0, n0) -> numbering1 o p M = Some (A1, n1) ->
    c < N -> c' < N -> r < tnb1 p -> r' < tnb1 p -> num1 o p A1 c r = num1 o p A1 c' r' ->
    zsum (tnb0 p) (fun k => (incidence0 o p M c r k * x (num0 p A0 c k))%Z) =
    zsum (tnb0 p) (fun k => (incidence0 o p M c' r' k * x (num0 p A0 c' k))%Z).
  Proof.
    intros E0 E1 Hc Hc' Hr Hr' E.
    destruct final0 as (A0' & n0' & E0' & L0 & _ & R0 & J0 & S0). rewrite E0 in E0'. injection E0' as <- <-.
    destruct (final1 o) as (A1' & n1' & E1' & L1 & _ & R1 & J1 & S1). rewrite E1 in E1'. injection E1' as <- <-.
    destruct (numbers_edge o p) as (RE & _ & SE).
    destruct (SE r Hr) as (e & He & Ee). destruct (SE r' Hr') as (e' & He' & Ee').
    replace r with (Z.to_nat (dofe o p e)) in * by lia. replace r' with (Z.to_nat (dofe o p e')) in * by lia.
    apply J1 in E; [|assumption..].
    (* a 0-cochain of places *)
    assert (G : exists g : loc0 -> Z, forall c n, c < N -> node_ok p n -> x (num0 p A0 c (Z.to_nat (dofn p n))) = g (whn p cells c n)).
    { set (all := flat_map (fun c => map (fun k => (c, k)) (seq 0 (tnb0 p))) (seq 0 N)).
      assert (LD : forall a b : loc0, {a = b} + {a <> b}) by (decide equality; apply Nat.eq_dec).
      set (nd := fun k => hd Sing (filter (fun n => (Z.to_nat (dofn p n) =? k)) (Sing :: flat_map (fun i => map (fun j => Nd i j) (seq 1 p)) (seq 0 (S p))))).
      assert (ND : forall n, node_ok p n -> nd (Z.to_nat (dofn p n)) = n).
      { intros n Hn. unfold nd. set (l := Sing :: _). assert (Hl : forall m, In m l -> node_ok p m).
        { intros m [<-|Hm]; [exact I|]. apply in_flat_map in Hm. destruct Hm as (i & Hi & Hm). apply in_map_iff in Hm. destruct Hm as (j & <- & Hj).
          apply in_seq in Hi, Hj. cbn. lia. }
        assert (Hin : In n l).
        { destruct n as [|i j]; [left; reflexivity|right]. cbn in Hn. apply in_flat_map. exists i. split; [apply in_seq; lia|]. apply in_map. apply in_seq. lia. }
        destruct (filter (fun m => Z.to_nat (dofn p m) =? Z.to_nat (dofn p n)) l) as [|m f] eqn:F.
        - assert (In n []) as []. rewrite <- F. apply filter_In. split; [exact Hin|apply Nat.eqb_refl].
        - cbn [hd]. assert (In m (m :: f)) as Hm by (left; reflexivity). rewrite <- F in Hm. apply filter_In in Hm. destruct Hm as [Hm Em].
          apply Nat.eqb_eq in Em. destruct (numbers_node p) as (RN & IN & _). pose proof (RN m (Hl m Hm)). pose proof (RN n Hn). apply IN; auto. lia. }
      exists (fun l => match find (fun ck => if LD (whn p cells (fst ck) (nd (snd ck))) l then true else false) all with
        | Some (c, k) => x (num0 p A0 c k) | None => 0%Z end).
      intros d n Hd Hn. destruct (find _ all) as [[d' k]|] eqn:F.
      - apply find_some in F. destruct F as [Hin Q]. cbn [fst snd] in Q. destruct (LD _ _) as [Q'|]; [|discriminate]. clear Q.
        apply in_flat_map in Hin. destruct Hin as (d'' & Hd' & Hin). apply in_map_iff in Hin. destruct Hin as (k' & Ek & Hk).
        injection Ek as -> ->. apply in_seq in Hd', Hk. destruct (numbers_node p) as (RN & _ & SN).
        destruct (SN k ltac:(lia)) as (m & Hm & Em). replace k with (Z.to_nat (dofn p m)) in * by lia.
        rewrite ND in Q' by exact Hm. f_equal. apply J0; auto. lia.
      - exfalso. pose proof (find_none _ _ F (d, Z.to_nat (dofn p n))) as Q. cbn [fst snd] in Q. rewrite ND in Q by exact Hn.
        destruct (LD (whn p cells d n) (whn p cells d n)) as [|Q']; [|apply Q'; reflexivity].
        assert (In (d, Z.to_nat (dofn p n)) all); [|intuition discriminate].
        apply in_flat_map. exists d. split; [apply in_seq; lia|]. apply in_map. apply in_seq.
        pose proof (proj1 (numbers_node p) n Hn). lia. }
    destruct G as (g & G).
    exact (coboundary0_agree p pts cells M Hp HK HD o g (fun c k => x (num0 p A0 c k)) c e c' e' G Hc Hc' He He' E).
  Qed.
  (* what leaves one cell through a shared edge enters the other one *)
  Lemma colsum_final o A1 n1 c r : numbering1 o p M = Some (A1, n1) -> c < N -> r < tnb1 p ->
    (forall c' r', c' < N -> r' < tnb1 p -> c' <> c -> num1 o p A1 c r = num1 o p A1 c' r' -> (colsum o p M c r + colsum o p M c' r' = 0)%Z) /\
    ((forall m, m < 3 -> ~ In (Z.of_nat r) (edge_dofs1 o p m)) -> colsum o p M c r = 0%Z) /\
    (forall m, m < 3 -> In (Z.of_nat r) (edge_dofs1 o p m) -> colsum o p M c r <> 0%Z).
  Proof.
    intros E1 Hc Hr.
    destruct (final1 o) as (A1' & n1' & E1' & L1 & _ & R1 & J1 & S1). rewrite E1 in E1'. injection E1' as <- <-.
    destruct (numbers_edge o p) as (RE & _ & SE). destruct (SE r Hr) as (e & He & Ee).
    replace r with (Z.to_nat (dofe o p e)) in * by lia. pose proof (RE e He) as Be. rewrite Z2Nat.id by lia. split; [|split].
    - intros c' r' Hc' Hr' Hne E. destruct (SE r' Hr') as (e' & He' & Ee'). replace r' with (Z.to_nat (dofe o p e')) in * by lia.
      apply J1 in E; [|assumption..].
      destruct (shared_sides p pts cells M Hp HK HD c e c' e' Hc Hc' (not_eq_sym Hne) He He' E) as (m & n & s & k & k' & Hm & Hn & Hk & -> & -> & Ek & S1' & S2 & F).
      assert (Hk' : k' < p) by (subst k'; destruct s; lia).
      rewrite !colsum_eq, !E1_col_on by assumption.
      rewrite (transition_on o p M c m) by (try assumption; apply epos1_sel; assumption).
      rewrite (transition_on o p M c' n) by (try assumption; apply epos1_sel; assumption).
      pose proof (sign_product p cells M Hp o c c' m n s Hc Hc' (not_eq_sym Hne) Hm Hn S1' S2 F) as T.
      pose proof (mesh_coherent pts cells c m c' n s HK Hc Hc' Hm Hn (not_eq_sym Hne) F) as C.
      destruct (minus o M c m), (minus o M c' n), o, s; three m; three n; cbn [out turn] in *; try lia.
    - intros Nm. rewrite colsum_eq, E1_col_in; [ring|exact Hp|exact He|].
      intros m Hm S. apply (Nm m Hm). apply edge_dofs1_in; assumption.
    - intros m Hm S. apply edge_dofs1_in in S; [|assumption..]. destruct (sel1_epos p m e Hm (conj He S)) as [Hk Ek].
      rewrite colsum_eq. set (T := transition o p M c _). assert (HT : T = 1%Z \/ T = (-1)%Z) by (unfold T, transition; destruct (existsb _ _); auto). clearbody T. rewrite Ek, E1_col_on by assumption.
      destruct HT as [-> | ->], o; three m; cbn [out turn]; lia.
  Qed.
End Final.

Lemma made_ok conds pts cells0 cells M : make_mesh conds pts cells0 = Some (cells, M) ->
  length cells = length cells0 /\
  (forall c, c < length cells -> ccw pts (cl cells c) /\
     (cl cells c = cl cells0 c \/ cl cells c = (corner (cl cells0 c) 0, corner (cl cells0 c) 2, corner (cl cells0 c) 1))) /\
  (no_overlap pts cells ->
     describes cells M /\
     (forall c m j s n, c < length cells -> m < 3 -> side_at M c m = SI j s n -> side_at M j n = SI c s m) /\
     (forall c m b, c < length cells -> m < 3 -> side_at M c m = SB b -> one_condition conds pts (cl cells c) m b)).
Proof.
  intros H. pose proof (proj1 (made conds pts cells0 cells M H)) as E. apply oriented_cells_ok in E. destruct E as [L E].
  split; [exact L|]. split; [intros c Hc; apply E; lia|]. intros HO.
  destruct (made_describes conds pts cells0 cells M H HO) as [HD HB]. split; [exact HD|]. split; [|exact HB].
  intros c m j s n Hc Hm S. pose proof (proj2 HD c m Hc Hm) as D. rewrite S in D. destruct D as (Hj & Hn & Hne & F).
  assert (HK := made_mesh conds pts cells0 cells M H HO).
  set (e := epos1 1 m 0). set (e' := epos1 1 n 0).
  destruct (epos1_sel 1 m 0 ltac:(lia) Hm ltac:(lia)) as [He _]. destruct (epos1_sel 1 n 0 ltac:(lia) Hn ltac:(lia)) as [He' _].
  assert (HM := proj1 (made_manifold conds pts cells0 cells M H HO)).
  assert (W : where1 1 cells c e = where1 1 cells j e').
  { unfold e, e'. rewrite !where1_epos by (try assumption; lia). rewrite F. destruct s; [reflexivity|]. unfold swap. cbn [fst snd].
    rewrite <- (on_seg_swap 1 (fst (ends (cl cells j) n))); [reflexivity| |lia]. apply (ends_ne 1 cells (le_n 1) HM j n Hj Hn). }
  destruct (shared_sides 1 pts cells M (le_n 1) HK HD c e j e' Hc Hj (not_eq_sym Hne) He He' W) as (m' & n' & s' & k & k' & Hm' & Hn' & _ & Em & En & _ & S1 & S2 & _).
  assert (m' = m) as -> by (clear - Hm Hm' Em; unfold e in Em; three m; three m'; cbn in Em; congruence).
  assert (n' = n) as -> by (clear - Hn Hn' En; unfold e' in En; three n; three n'; cbn in En; congruence).
  congruence.
Qed.
(* when there is no mesh *)
Lemma made_none (conds : list (nat * (point -> bool))) pts cells0 :
  (forall t, In t cells0 -> forall k, k < 3 -> corner t k < length pts) ->
  (forall t, In t cells0 -> ~ flat pts t) ->
  exists cells, oriented_cells pts cells0 = Some cells /\
    (no_overlap pts cells -> make_mesh conds pts cells0 = None ->
     exists c m, c < length cells /\ m < 3 /\
      (forall j n, j < length cells -> n < 3 -> j <> c -> ~ same_line cells c m j n) /\
      forall b, ~ one_condition conds pts (cl cells c) m b).
Proof.
  intros HR HA. destruct (oriented_cells pts cells0) as [cells|] eqn:E.
  - exists cells. split; [reflexivity|]. intros HO HN. unfold make_mesh in HN. rewrite E in HN. cbn [bind] in HN.
    pose proof (oriented_cells_ok _ _ _ E) as [L C].
    assert (HK : mesh_ok pts cells) by (split; [intros c Hc; apply C; lia|exact HO]).
    destruct (mesh_manifold pts cells HK) as [HM HS].
    destruct (element_map_good cells HM HS) as (EM & E1 & G). rewrite E1 in HN. cbn [bind] in HN.
    destruct (parse_boundaries conds pts cells EM) as [M|] eqn:E2; [discriminate|].
    exact (parse_none conds pts cells EM G E2).
  - exfalso. apply sequence_none in E. apply in_map_iff in E. destruct E as ([[a b] c] & E & Hin).
    pose proof (HR _ Hin) as R. apply oriented_none in E.
    + exact (HA _ Hin E).
    + exact (R 0 ltac:(lia)).
    + exact (R 1 ltac:(lia)).
    + exact (R 2 ltac:(lia)).
Qed.
Lemma numbering2_ok p n :
  (forall c k, k < p * p -> (0 <= znth (gathering2 p c) k)%Z /\ (c < n -> (znth (gathering2 p c) k < Z.of_nat (n * (p * p)))%Z)) /\
  (forall c k c' k', k < p * p -> k' < p * p -> znth (gathering2 p c) k = znth (gathering2 p c') k' -> c = c' /\ k = k') /\
  (forall g, g < n * (p * p) -> exists c k, c < n /\ k < p * p /\ znth (gathering2 p c) k = Z.of_nat g).
Proof.
  split; [|split].
  - intros c k Hk. rewrite gathering2_at by exact Hk. split; [lia|]. intros Hc. apply inj_lt. nia.
  - intros c k c' k' Hk Hk' E. rewrite !gathering2_at in E by assumption. apply Nat2Z.inj in E.
    assert (k = k' /\ c = c') as [A B]; [|split; assumption]. apply (lin_inj (p * p)); auto. lia.
  - intros g Hg. destruct (lin_split (p * p) n g Hg) as (k & c & Hk & Hc & ->). exists c, k.
    split; [exact Hc|]. split; [exact Hk|]. rewrite gathering2_at by exact Hk. f_equal. lia.
Qed.
(* numbers of the grid positions *)
Lemma final0_grid conds pts cells0 cells M p : make_mesh conds pts cells0 = Some (cells, M) -> no_overlap pts cells -> 1 <= p ->
  exists A n, numbering0 p cells M = Some (A, n) /\ length A = length cells /\
    (forall c, c < length cells -> length (gathering0 p (nth c A ones2)) = tnb0 p) /\
    (forall c i j, c < length cells -> i <= p -> j <= p -> (0 <= num0 p A c (Z.to_nat (tln0 p i j)) < Z.of_nat n)%Z) /\
    (forall c i j c' i' j', c < length cells -> c' < length cells -> i <= p -> j <= p -> i' <= p -> j' <= p ->
      (num0 p A c (Z.to_nat (tln0 p i j)) = num0 p A c' (Z.to_nat (tln0 p i' j')) <-> where0 p cells c i j = where0 p cells c' i' j')) /\
    (forall k, k < n -> exists c i j, c < length cells /\ i <= p /\ j <= p /\ num0 p A c (Z.to_nat (tln0 p i j)) = Z.of_nat k).
Proof.
  intros HE HO Hp. destruct (final0 conds pts cells0 cells M p HE HO Hp) as (A & n & E & L & G & R & J & S).
  assert (NO : forall i j, i <= p -> j <= p -> node_ok p (node_at i j)) by (intros i j Hi Hj; destruct j; cbn; lia).
  exists A, n. split; [exact E|]. split; [exact L|]. split; [exact G|]. split; [|split].
  - intros c i j Hc Hi Hj. rewrite dofn_at. apply R; auto.
  - intros c i j c' i' j' Hc Hc' Hi Hj Hi' Hj'. rewrite !dofn_at. rewrite J by auto. rewrite !whn_at. reflexivity.
  - intros k Hk. destruct (S k Hk) as (c & m & Hc & Hm & Em). exists c. destruct m as [|i j].
    + exists 0, 0. split; [exact Hc|]. split; [lia|]. split; [lia|]. exact Em.
    + cbn in Hm. exists i, j. split; [exact Hc|]. split; [lia|]. split; [lia|]. exact Em.
Qed.
(* bad input that is accepted *)
Lemma three_cells_refuted : exists E, element_map [(0,1,2);(0,1,3);(0,1,4)] = Some E /\
  same_line [(0,1,2);(0,1,3);(0,1,4)] 0 0 1 0 /\
  nth 0 (nth 0 E []) None = Some (2, true, 0) /\ nth 0 (nth 2 E []) None = Some (1, true, 0).
Proof. eexists. split; [vm_compute; reflexivity|]. split; [left; reflexivity|]. split; reflexivity. Qed.
Lemma duplicate_refuted : exists E, element_map [(0,1,2);(3,1,0);(0,2,4);(2,1,5);(0,1,2)] = Some E /\
  nth 0 (nth 0 E []) None = Some (1, true, 2) /\ nth 2 (nth 1 E []) None = Some (4, true, 0).
Proof. eexists. split; [vm_compute; reflexivity|]. split; reflexivity. Qed.
(* the dofs on the edges of an element *)
Lemma edge_dofs_ok o p m : 1 <= p -> m < 3 ->
  (forall e, edge_ok p e -> (In (dofe o p e) (edge_dofs1 o p m) <-> on_edge p m e)) /\
  (forall n, node_ok p n -> (In (dofn p n) (edge_dofs0 p m) <->
     exists e, edge_ok p e /\ on_edge p m e /\ (n = start e \/ n = stop e))).
Proof.
  intros Hp Hm. split; [intros e He; apply edge_dofs1_in; assumption|]. intros n Hn.
  assert (L : edge_dofs0 p m = map (fun k => dofn p (pnode p m k)) (seq 0 (p + 1))).
  { three m; cbn [edge_dofs0 pnode]; apply map_ext; intros k; apply dofn_at. }
  assert (PO : forall k, k <= p -> node_ok p (pnode p m k)) by (intros k Hk; three m; destruct k; cbn; try (destruct p; cbn); lia).
  rewrite L, in_map_iff. split.
  - intros (k & E & Hk). apply in_seq in Hk. apply (numbers_node p) in E; [|apply PO; lia|exact Hn]. subst n.
    destruct (Nat.eq_dec k p) as [Ek|Nk].
    + exists (epos1 p m (p - 1)). destruct (epos1_sel p m (p - 1) Hp Hm ltac:(lia)) as [S1 S2].
      split; [exact S1|]. split; [exact S2|]. right. destruct (start_pnode p [] Hp m (p - 1) Hm) as [_ ->]. f_equal. lia.
    + exists (epos1 p m k). destruct (epos1_sel p m k Hp Hm ltac:(lia)) as [S1 S2].
      split; [exact S1|]. split; [exact S2|]. left. destruct (start_pnode p [] Hp m k Hm) as [-> _]. reflexivity.
  - intros (e & He & SE & E). destruct (sel1_epos p m e Hm (conj He SE)) as [Hk Ee]. rewrite Ee in E.
    destruct (start_pnode p [] Hp m (along1 e) Hm) as [Es Et]. rewrite Es, Et in E. destruct E as [-> | ->].
    + exists (along1 e). split; [reflexivity|apply in_seq; lia].
    + exists (S (along1 e)). split; [reflexivity|apply in_seq; lia].
Qed.
