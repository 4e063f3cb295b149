(* Proofs about Typ3Model. *)
From Coq Require Import Reals Bool Lra.
From Verif Require Import TfiModel TfiSpec TfiProofs TfiProofs2 Typ3Model Typ3Spec.
Local Open Scope R_scope.

Lemma req_true : forall a b, req a b = true <-> a = b.
Proof. intros. unfold req. destruct (Req_EM_T a b); split; intro; congruence. Qed.
Lemma rlt_true : forall a b, rlt a b = true <-> a < b.
Proof. intros. unfold rlt. destruct (Rlt_dec a b); split; intro; try congruence; contradiction. Qed.
Lemma rle_true : forall a b, rle a b = true <-> a <= b.
Proof. intros. unfold rle. destruct (Rle_dec a b); split; intro; try congruence; contradiction. Qed.
Lemma chain4_true : forall a b c d, chain4 a b c d = true <-> a = b /\ b = c /\ c = d.
Proof. intros. unfold chain4. rewrite !andb_true_iff, !req_true. tauto. Qed.

Lemma chaos_ok : forall planes k, classify3 planes k = t3Chaos <-> planes = false.
Proof.
  intros planes k. split.
  - destruct planes; [|reflexivity]. unfold classify3. cbn [negb].
    destruct (k0 k) as [[? ?] ?], (k1 k) as [[? ?] ?], (k2 k) as [[? ?] ?], (k3 k) as [[? ?] ?],
      (k4 k) as [[? ?] ?], (k5 k) as [[? ?] ?], (k6 k) as [[? ?] ?], (k7 k) as [[? ?] ?].
    destruct (_ && _); [|discriminate]. cbv zeta. destruct (_ && _); discriminate.
  - intros ->. reflexivity.
Qed.
Lemma orth_ok : forall planes k l, classify3 planes k = t3Orth l <->
  planes = true /\ exists lo hi, below lo hi /\ k = box lo hi /\ l = sizes lo hi.
Proof.
  intros planes k l. split.
  - destruct planes; [|discriminate]. intro H. split; [reflexivity|]. revert H.
    destruct k as [[[a0 b0] c0] [[a1 b1] c1] [[a2 b2] c2] [[a3 b3] c3] [[a4 b4] c4] [[a5 b5] c5] [[a6 b6] c6] [[a7 b7] c7]].
    unfold classify3. cbn [negb k0 k1 k2 k3 k4 k5 k6 k7].
    match goal with |- (if ?b then _ else _) = _ -> _ => destruct b eqn:E end; [|discriminate].
    cbv zeta.
    match goal with |- (if ?b then _ else _) = _ -> _ => destruct b eqn:P end; [|discriminate].
    intro H. injection H as <-.
    rewrite !andb_true_iff, !chain4_true in E. rewrite !andb_true_iff, !rlt_true in P.
    decompose [and] E. decompose [and] P. subst.
    match goal with |- exists lo hi, _ /\ mkCorners ?p _ _ _ _ _ _ ?q = _ /\ _ => exists p, q end.
    split; [|split].
    + intros [| |]; cbn [get]; lra.
    + reflexivity.
    + reflexivity.
  - intros [-> ([[x0 y0] z0] & [[x1 y1] z1] & B & -> & ->)].
    pose proof (B cX) as BX. pose proof (B cY) as BY. pose proof (B cZ) as BZ. cbn [get] in BX, BY, BZ.
    unfold classify3, box, sizes. cbn [negb k0 k1 k2 k3 k4 k5 k6 k7 get].
    match goal with |- (if ?b then _ else _) = _ => assert (E : b = true) end.
    { rewrite !andb_true_iff, !chain4_true. repeat split; reflexivity. }
    rewrite E. cbv zeta.
    match goal with |- (if ?b then _ else _) = _ => assert (P : b = true) end.
    { rewrite !andb_true_iff, !rlt_true. lra. }
    rewrite P. reflexivity.
Qed.
Lemma ok_interval_true : forall i, ok_interval i = true <-> 0 <= fst i /\ fst i < snd i /\ snd i <= 1.
Proof. intros. unfold ok_interval. rewrite !andb_true_iff, !rle_true, rlt_true. tauto. Qed.
Lemma element_orth : forall t i j l d, classify_element3 t (i, j, l) = t3Orth d <->
  sub_cube i j l /\ exists lx ly lz, t = t3Orth (lx, ly, lz) /\
  d = ((snd i - fst i) * lx, (snd j - fst j) * ly, (snd l - fst l) * lz).
Proof.
  intros t i j l d. unfold classify_element3, sub_cube. rewrite <- !ok_interval_true.
  destruct (ok_interval i), (ok_interval j), (ok_interval l); cbn [andb];
    try (split; [discriminate|intros [(? & ? & ?) _]; discriminate]).
  split.
  - destruct t as [| |[[lx ly] lz]]; try discriminate. intro H. injection H as <-.
    split; [auto|]. exists lx, ly, lz. auto.
  - intros [_ (lx & ly & lz & -> & ->)]. reflexivity.
Qed.
Lemma element_chaos : forall t i j l, classify_element3 t (i, j, l) = t3Chaos <-> sub_cube i j l /\ t = t3Chaos.
Proof.
  intros t i j l. unfold classify_element3, sub_cube. rewrite <- !ok_interval_true.
  destruct (ok_interval i), (ok_interval j), (ok_interval l); cbn [andb];
    try (split; [discriminate|intros [(? & ? & ?) _]; discriminate]).
  destruct t as [| |[[lx ly] lz]]; split; try discriminate; try (intros [_ ?]; discriminate); auto.
Qed.
Lemma classify3_ok : forall planes k,
  (classify3 planes k = t3Chaos <-> planes = false) /\
  (forall l, classify3 planes k = t3Orth l <-> planes = true /\ exists lo hi, below lo hi /\ k = box lo hi /\ l = sizes lo hi) /\
  (classify3 planes k = t3Raise <-> planes = true /\ ~ exists lo hi, below lo hi /\ k = box lo hi).
Proof.
  intros planes k. split; [apply chaos_ok|]. split; [apply orth_ok|]. split.
  - intro H. split.
    + destruct planes; [reflexivity|discriminate H].
    + intros (lo & hi & B & E). assert (T : classify3 planes k = t3Orth (sizes lo hi)).
      { apply orth_ok. split; [destruct planes; [reflexivity|discriminate H]|]. exists lo, hi. auto. }
      congruence.
  - intros [P N]. destruct (classify3 planes k) eqn:E; [reflexivity| |].
    + apply chaos_ok in E. congruence.
    + apply orth_ok in E. destruct E as [_ (lo & hi & B & E & _)]. exfalso. apply N. exists lo, hi. auto.
Qed.
(* the map of an element of an orthogonal region *)
Lemma element_map : forall planes k i j l dx dy dz, classify_element3 (classify3 planes k) (i, j, l) = t3Orth (dx, dy, dz) ->
  0 < dx /\ 0 < dy /\ 0 < dz /\ exists o : point, forall u v w,
  part (tf_map (plane_sides k)) i j l cX u v w = get o cX + dx * u /\
  part (tf_map (plane_sides k)) i j l cY u v w = get o cY + dy * v /\
  part (tf_map (plane_sides k)) i j l cZ u v w = get o cZ + dz * w.
Proof.
  intros planes k i j l dx dy dz H. apply element_orth in H. destruct H as [S (lx & ly & lz & T & D)].
  apply orth_ok in T. destruct T as [_ ([[x0 y0] z0] & [[x1 y1] z1] & B & -> & E)].
  pose proof (B cX) as BX. pose proof (B cY) as BY. pose proof (B cZ) as BZ.
  unfold sizes in E. cbn [get] in *. injection E as -> -> ->. injection D as -> -> ->.
  destruct S as ((? & ? & ?) & (? & ? & ?) & (? & ? & ?)).
  split; [apply Rmult_lt_0_compat; lra|]. split; [apply Rmult_lt_0_compat; lra|]. split; [apply Rmult_lt_0_compat; lra|].
  exists ((x1 - x0) * fst i + x0, (y1 - y0) * fst j + y0, (z1 - z0) * fst l + z0). intros u v w.
  unfold part. rewrite <- !orth_is_transfinite.
  unfold orth_map, orth_bounds, box, at_part. cbn [k0 k1 k2 k4 get]. repeat split; ring.
Qed.
Lemma same_element : forall planes k i j l planes' k' i' j' l' d,
  classify_element3 (classify3 planes k) (i, j, l) = t3Orth d ->
  classify_element3 (classify3 planes' k') (i', j', l') = t3Orth d ->
  exists o : point, forall c u v w, part (tf_map (plane_sides k')) i' j' l' c u v w = part (tf_map (plane_sides k)) i j l c u v w + get o c.
Proof.
  intros planes k i j l planes' k' i' j' l' [[dx dy] dz] H H'.
  apply element_map in H. apply element_map in H'.
  destruct H as (_ & _ & _ & o & M). destruct H' as (_ & _ & _ & o' & M').
  exists (get o' cX - get o cX, get o' cY - get o cY, get o' cZ - get o cZ). intros c u v w.
  destruct (M u v w) as (MX & MY & MZ). destruct (M' u v w) as (MX' & MY' & MZ').
  destruct c; cbn [get]; [rewrite MX, MX'|rewrite MY, MY'|rewrite MZ, MZ']; ring.
Qed.
Lemma orth_jacobian3 : forall planes k lx ly lz, classify3 planes k = t3Orth (lx, ly, lz) -> forall r s t,
  tf_Jacobian_matrix (plane_sides k) r s t = ((lx, 0, 0), (0, ly, 0), (0, 0, lz)).
Proof.
  intros planes k lx ly lz H r s t. apply orth_ok in H. destruct H as [_ (lo & hi & _ & -> & E)].
  rewrite box_jacobian. unfold sizes in E. injection E as -> -> ->.
  unfold orth_Jacobian_matrix, orth_bounds, box. cbn [k0 k1 k2 k4 get]. reflexivity.
Qed.
