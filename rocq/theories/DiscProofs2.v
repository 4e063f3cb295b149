(* The discretizations as integrals over the cells. *)
From Coq Require Import Reals List Lia Lra Arith.
From Verif Require Import TfiModel TfiSpec CtModel CtSpec CtProofs RingSum SpaceSpec DiscModel DiscSpec DiscProofs.
Import ListNotations.
Open Scope R_scope.

Lemma flat_map_flat_map {A B C} (f : A -> list B) (g : B -> list C) l :
  flat_map g (flat_map f l) = flat_map (fun x => flat_map g (f x)) l.
Proof. induction l as [|x l IH]; [reflexivity|]. cbn [flat_map]. rewrite flat_map_app, IH. reflexivity. Qed.
Lemma flat_map_map {A B C} (f : A -> B) (g : B -> list C) l : flat_map g (map f l) = flat_map (fun x => g (f x)) l.
Proof. rewrite !flat_map_concat_map, map_map. reflexivity. Qed.
Lemma cells_nest p0 p1 p2 a b c : cells_t [p0; p1; p2] [a; b; c] =
  nest (size p0 a) (size p1 b) (size p2 c) (fun i j k => [(a, i); (b, j); (c, k)]).
Proof.
  unfold cells_t, nest. cbn [sizes grid flat_map]. rewrite app_nil_r, map_flat_map, flat_map_flat_map, flat_map_map.
  apply flat_map_ext. intros k. rewrite flat_map_map. apply flat_map_ext. intros j. rewrite map_map. reflexivity.
Qed.

(* ---------- sums ---------- *)
Lemma rsum_ext {A} (l : list A) f g : (forall a, In a l -> f a = g a) -> rsum l f = rsum l g.
Proof.
  induction l as [|x l IH]; intros H; [reflexivity|]. unfold rsum. cbn [fold_right]. change (f x + rsum l f = g x + rsum l g).
  rewrite (H x (or_introl eq_refl)), IH by (intros a Ha; apply H; right; exact Ha). reflexivity.
Qed.
Lemma rsum_cons {A} (x : A) l f : rsum (x :: l) f = f x + rsum l f.
Proof. reflexivity. Qed.
Lemma rsum_map {A B} (m : A -> B) l f : rsum (map m l) f = rsum l (fun a => f (m a)).
Proof. induction l as [|x l IH]; [reflexivity|]. cbn [map]. rewrite !rsum_cons, IH. reflexivity. Qed.
Lemma rsum_scal {A} (l : list A) f c : rsum l f * c = rsum l (fun a => f a * c).
Proof. induction l as [|x l IH]; [unfold rsum; cbn; ring|]. rewrite !rsum_cons, <- IH. ring. Qed.
Lemma lsum_map2 {A B} (f : A -> B -> R) l m : lsum (map2 f l m) = rsum (combine l m) (fun ab => f (fst ab) (snd ab)).
Proof.
  revert m. induction l as [|x l IH]; intros [|y m]; try reflexivity. cbn [map2 combine]. rewrite rsum_cons, <- IH. reflexivity.
Qed.
Lemma map2_map_l {A A' B C} (f : A' -> B -> C) (g : A -> A') l m : map2 f (map g l) m = map2 (fun a b => f (g a) b) l m.
Proof. revert m. induction l as [|x l IH]; intros [|y m]; try reflexivity. cbn [map map2]. rewrite IH. reflexivity. Qed.

Lemma factor_pt n r i f : rsum (factor_rule n r (false, i)) f = f (nd n i, 1).
Proof. unfold factor_rule, nd. rewrite rsum_cons. unfold rsum. cbn [fold_right]. ring. Qed.
Lemma factor_int n r i f : rsum (factor_rule n r (true, i)) f =
  rsum (combine (fst r) (snd r)) (fun qw => f (st n i (fst qw), snd qw * ((nd n (S i) - nd n i) / 2))).
Proof.
  unfold factor_rule, st, nd. cbv zeta. rewrite rsum_map. apply rsum_ext. intros [q w] _. cbn [fst snd]. f_equal. f_equal. field.
Qed.

(* ---------- 0-forms ---------- *)
Lemma disc0_ok g p0 p1 p2 F f : length (gx g) = S p0 -> length (gy g) = S p1 -> length (gz g) = S p2 ->
  disc0 (gx g) (gy g) (gz g) F f = map (int0 g F f) (cells [p0; p1; p2] nodes3).
Proof.
  intros H0 H1 H2. unfold disc0, mesh3, cells, nodes3. cbn [flat_map]. rewrite app_nil_r, cells_nest, nest_map.
  cbn [size]. rewrite (nodes_seq _ _ H0), (nodes_seq _ _ H1), (nodes_seq _ _ H2). rewrite map_flat_map, flat_map_map.
  unfold nest. apply flat_map_ext. intros k. rewrite map_flat_map, flat_map_map. apply flat_map_ext. intros j.
  rewrite !map_map. apply map_ext. intros i. unfold int0, cell_quad, at_map, through.
  rewrite !factor_pt. cbn [fst snd]. ring.
Qed.

(* ---------- 1-forms ---------- *)
Lemma pts_x (h : R -> R -> R -> R) q (s : R -> R) y z : map2 (fun x p => h x (fst p) (snd p)) (map s q) (combine (repeat y (length q)) (repeat z (length q)))
  = map (fun x => h (s x) y z) q :> list R.
Proof. induction q as [|x q IH]; [reflexivity|]. cbn [length repeat combine map map2 fst snd]. rewrite IH. reflexivity. Qed.
Lemma pts_y (h : R -> R -> R -> R) q (s : R -> R) y z : map2 (fun x p => h x (fst p) (snd p)) (repeat y (length q)) (combine (map s q) (repeat z (length q)))
  = map (fun x => h y (s x) z) q :> list R.
Proof. induction q as [|x q IH]; [reflexivity|]. cbn [length repeat combine map map2 fst snd]. rewrite IH. reflexivity. Qed.
Lemma pts_z (h : R -> R -> R -> R) q (s : R -> R) y z : map2 (fun x p => h x (fst p) (snd p)) (repeat y (length q)) (combine (repeat z (length q)) (map s q))
  = map (fun x => h y z (s x)) q :> list R.
Proof. induction q as [|x q IH]; [reflexivity|]. cbn [length repeat combine map map2 fst snd]. rewrite IH. reflexivity. Qed.
Lemma line_sum (f : R -> R) q w d : lsum (map2 Rmult (map f q) w) * (d * (1 / 2)) =
  rsum (combine q w) (fun qw => f (fst qw) * (snd qw * (d / 2))).
Proof. rewrite map2_map_l, lsum_map2, rsum_scal. apply rsum_ext. intros [a b] _. cbn [fst snd]. field. Qed.

Section One.
Variables (g : Grid) (p0 p1 p2 : nat).
Hypotheses (H0 : length (gx g) = S p0) (H1 : length (gy g) = S p1) (H2 : length (gz g) = S p2).
Lemma part_x_ok h : part1 (prep_x (gx g) (gy g) (gz g) p0 p1 p2 (fst (rx g))) (snd (rx g)) h =
  map (cell_quad g h) (cells_t [p0; p1; p2] [true; false; false]).
Proof.
  rewrite (prep_x_ok _ _ _ p0 p1 p2 H0 H1 H2), cells_nest, nest_map. unfold part1, at_points, einsum1. cbn [size].
  rewrite nest_map2, nest_map2, nest_map, nest_map2. apply nest_ext. intros i j k _ _ _.
  rewrite pts_x, line_sum. unfold cell_quad. rewrite factor_int. apply rsum_ext. intros [q w] _. rewrite !factor_pt. cbn [fst snd]. ring.
Qed.
Lemma part_y_ok h : part1 (prep_y (gx g) (gy g) (gz g) p0 p1 p2 (fst (ry g))) (snd (ry g)) h =
  map (cell_quad g h) (cells_t [p0; p1; p2] [false; true; false]).
Proof.
  rewrite (prep_y_ok _ _ _ p0 p1 p2 H0 H1 H2), cells_nest, nest_map. unfold part1, at_points, einsum1. cbn [size].
  rewrite nest_map2, nest_map2, nest_map, nest_map2. apply nest_ext. intros i j k _ _ _.
  rewrite pts_y, line_sum. unfold cell_quad. rewrite factor_pt, factor_int. apply rsum_ext. intros [q w] _. rewrite !factor_pt. cbn [fst snd]. ring.
Qed.
Lemma part_z_ok h : part1 (prep_z (gx g) (gy g) (gz g) p0 p1 p2 (fst (rz g))) (snd (rz g)) h =
  map (cell_quad g h) (cells_t [p0; p1; p2] [false; false; true]).
Proof.
  rewrite (prep_z_ok _ _ _ p0 p1 p2 H0 H1 H2), cells_nest, nest_map. unfold part1, at_points, einsum1. cbn [size].
  rewrite nest_map2, nest_map2, nest_map, nest_map2. apply nest_ext. intros i j k _ _ _.
  rewrite pts_z, line_sum. unfold cell_quad. rewrite !factor_pt, factor_int. apply rsum_ext. intros [q w] _. cbn [fst snd]. ring.
Qed.
End One.

Lemma quad_ext g h h' c : (forall x y z, h x y z = h' x y z) -> cell_quad g h c = cell_quad g h' c.
Proof.
  intros H. unfold cell_quad. destruct c as [|a [|b [|d [|e c]]]]; try reflexivity.
  apply rsum_ext. intros u _. apply rsum_ext. intros v _. apply rsum_ext. intros w _. rewrite H. reflexivity.
Qed.
Lemma integrand1_ok F J v orth c x y z : (orth = true -> diagonal (J x y z)) ->
  integrand1 F J v orth c x y z = pull1 F J v c x y z.
Proof.
  intros D. unfold integrand1, pull1, col_of, col, dot, csum, through, value, ent, mrow, at_map.
  destruct orth.
  - specialize (D eq_refl). unfold diagonal, ent, mrow in D.
    destruct (J x y z) as [[[[a b] d] [[e f] h]] [[i j] k]].
    assert (D1 := D cX cY ltac:(discriminate)). assert (D2 := D cX cZ ltac:(discriminate)). assert (D3 := D cY cX ltac:(discriminate)).
    assert (D4 := D cY cZ ltac:(discriminate)). assert (D5 := D cZ cX ltac:(discriminate)). assert (D6 := D cZ cY ltac:(discriminate)).
    cbn in D1, D2, D3, D4, D5, D6. subst. destruct c; cbn; ring.
  - destruct (J x y z) as [[[[a b] d] [[e f] h]] [[i j] k]]. destruct c; cbn; ring.
Qed.
Lemma cells_along p t c : length t = length p -> In c (cells_t p t) -> map fst c = t.
Proof.
  intros Hl H. unfold cells_t in H. apply in_map_iff in H. destruct H as (i & <- & Hi).
  assert (length i = length t) as L. { 
    assert (forall s i, In i (grid s) -> length i = length s) as G. {
      induction s as [|n s IH]; intros u Hu; cbn [grid] in Hu.
      - destruct Hu as [<-|[]]. reflexivity.
      - apply in_flat_map in Hu. destruct Hu as (r & Hr & Hu). apply in_map_iff in Hu. destruct Hu as (a & <- & _).
        cbn [length]. rewrite (IH r Hr). reflexivity. }
    rewrite (G _ _ Hi). clear - Hl. revert p Hl. induction t as [|b t IH]; intros [|n p] Hl; try discriminate; [reflexivity|].
    cbn [sizes length]. rewrite IH by (injection Hl; auto). reflexivity. }
  clear - L. revert i L. induction t as [|b t IH]; intros [|n i] L; try discriminate; [reflexivity|]. cbn [combine map fst].
  rewrite IH by (injection L; auto). reflexivity.
Qed.
Lemma disc1_ok g p0 p1 p2 F J orth v : length (gx g) = S p0 -> length (gy g) = S p1 -> length (gz g) = S p2 ->
  (orth = true -> forall x y z, diagonal (J x y z)) ->
  disc1 (gx g) (gy g) (gz g) p0 p1 p2 (rx g) (ry g) (rz g) F J orth v = map (int1 g F J v) (cells [p0; p1; p2] edges3).
Proof.
  intros H0 H1 H2 D. unfold disc1, cells, edges3. rewrite (part_x_ok g p0 p1 p2 H0 H1 H2), (part_y_ok g p0 p1 p2 H0 H1 H2), (part_z_ok g p0 p1 p2 H0 H1 H2).
  cbn [flat_map]. rewrite app_nil_r, !map_app.
  f_equal; [|f_equal]; apply map_ext_in; intros c Hc; apply cells_along in Hc; try reflexivity;
    unfold int1, along; rewrite Hc; apply quad_ext; intros; apply integrand1_ok; auto.
Qed.

(* ---------- 2- and 3-forms ---------- *)
Lemma write_get {A} (ms : list (nat * A)) f m : ~ In m (map fst ms) -> fold_left write ms f m = f m.
Proof.
  revert f. induction ms as [|[k a] ms IH]; intros f H; [reflexivity|]. cbn [fold_left map fst In] in *. rewrite IH by tauto.
  unfold write. cbn [fst snd]. destruct (Nat.eqb_spec m k); [exfalso; auto|reflexivity].
Qed.
Lemma fill_in {A} (z : A) L num gg t : NoDup (map num L) -> In t L -> fill z L num gg (num t) = gg t.
Proof.
  unfold fill. generalize (fun _ : nat => z). induction L as [|u L IH]; intros f N H; [destruct H|].
  cbn [map] in *. inversion N as [|? ? Nu N']; subst. cbn [fold_left]. destruct H as [->|H].
  - rewrite write_get.
    + unfold write. cbn [fst snd]. rewrite Nat.eqb_refl. reflexivity.
    + rewrite map_map. cbn [fst]. exact Nu.
  - apply IH; auto.
Qed.
Lemma fill_all {A B} (z : A) L num gg N (E : A -> B) : map num L = seq 0 N ->
  map (fun m => E (fill z L num gg m)) (seq 0 N) = map (fun t => E (gg t)) L.
Proof.
  intros H. assert (NoDup (map num L)) as ND by (rewrite H; apply seq_NoDup). rewrite <- H, map_map. apply map_ext_in.
  intros t Ht. rewrite fill_in by assumption. reflexivity.
Qed.
Lemma loops_nest {A} (f : nat * nat * nat -> A) I J K : map f (loops K J I) = nest I J K (fun i j k => f (i, j, k)).
Proof. change (loops K J I) with (nest I J K (fun i j k => (i, j, k))). apply nest_map. Qed.
Lemma seq_blocks a I J : flat_map (fun j => map (fun i => (i + j * I + a)%nat) (seq 0 I)) (seq 0 J) = seq a (I * J).
Proof.
  revert a. induction J as [|J IH]; intros a; [rewrite Nat.mul_0_r; reflexivity|].
  replace (I * S J)%nat with (I + I * J)%nat by ring. rewrite seq_app. cbn [seq flat_map]. f_equal.
  - clear. revert a. induction I as [|I IH]; intros a; [reflexivity|]. cbn [seq map]. f_equal. rewrite <- seq_shift, map_map, <- (IH (S a)).
    apply map_ext. intros x. lia.
  - rewrite <- seq_shift, flat_map_map, <- (IH (a + I)%nat). apply flat_map_ext. intros j. apply map_ext. intros i. lia.
Qed.
Lemma nest_seq I J K num : (forall i j k, num i j k = (i + j * I + k * (I * J))%nat) -> nest I J K num = seq 0 (I * J * K).
Proof.
  intros H. unfold nest. rewrite <- (seq_blocks 0 (I * J) K), flat_map_concat_map, flat_map_concat_map. f_equal. apply map_ext. intros k.
  rewrite (flat_map_ext _ (fun j => map (fun i => (i + j * I + k * (I * J))%nat) (seq 0 I))).
  - rewrite seq_blocks. generalize (k * (I * J))%nat as a. generalize (I * J)%nat as n. clear. induction n as [|n IH]; intros a; [reflexivity|].
    cbn [seq map]. f_equal; [lia|]. rewrite IH, <- (seq_shift n 0), map_map. apply map_ext. intros x. lia.
  - intros j. apply map_ext. intros i. apply H.
Qed.
Lemma stretch_st n i q : stretch n i q = st n i q.
Proof. unfold stretch, st. rewrite Nat.add_1_r. reflexivity. Qed.

Section Faces.
Variables (g : Grid) (p0 p1 p2 : nat) (h : R -> R -> R -> R).
Lemma faces_x_ok : map (fun m => einsum2 h (patches_x (gx g) (gy g) (gz g) p0 p1 p2 (fst (ry g)) (fst (rz g)) m) (snd (ry g)) (snd (rz g)))
    (seq 0 ((p0 + 1) * p1 * p2)) = map (cell_quad g h) (cells_t [p0; p1; p2] [false; true; true]).
Proof.
  unfold patches_x. rewrite (fill_all zero_patch _ _ _ _ (fun P => einsum2 h P (snd (ry g)) (snd (rz g)))).
  - rewrite loops_nest, cells_nest, nest_map. cbn [size]. rewrite Nat.add_1_r. apply nest_ext. intros i j k _ _ _.
    unfold einsum2, cell_quad. cbn [fst snd]. rewrite factor_pt, factor_int, map2_map_l, lsum_map2, rsum_scal.
    apply rsum_ext. intros [a wa] _. cbn [fst snd]. rewrite map2_map_l, lsum_map2, factor_int, rsum_scal.
    apply rsum_ext. intros [b wb] _. cbn [fst snd]. rewrite !stretch_st, !Nat.add_1_r. field.
  - rewrite loops_nest. apply nest_seq. intros. ring.
Qed.
Lemma faces_y_ok : map (fun m => einsum2 h (patches_y (gx g) (gy g) (gz g) p0 p1 p2 (fst (rx g)) (fst (rz g)) m) (snd (rx g)) (snd (rz g)))
    (seq 0 (p0 * (p1 + 1) * p2)) = map (cell_quad g h) (cells_t [p0; p1; p2] [true; false; true]).
Proof.
  unfold patches_y. rewrite (fill_all zero_patch _ _ _ _ (fun P => einsum2 h P (snd (rx g)) (snd (rz g)))).
  - rewrite loops_nest, cells_nest, nest_map. cbn [size]. rewrite Nat.add_1_r. apply nest_ext. intros i j k _ _ _.
    unfold einsum2, cell_quad. cbn [fst snd]. rewrite factor_int, map2_map_l, lsum_map2, rsum_scal.
    apply rsum_ext. intros [a wa] _. cbn [fst snd]. rewrite factor_pt, map2_map_l, lsum_map2, factor_int, rsum_scal.
    apply rsum_ext. intros [b wb] _. cbn [fst snd]. rewrite !stretch_st, !Nat.add_1_r. field.
  - rewrite loops_nest. apply nest_seq. intros. ring.
Qed.
Lemma faces_z_ok : map (fun m => einsum2 h (patches_z (gx g) (gy g) (gz g) p0 p1 p2 (fst (rx g)) (fst (ry g)) m) (snd (rx g)) (snd (ry g)))
    (seq 0 (p0 * p1 * (p2 + 1))) = map (cell_quad g h) (cells_t [p0; p1; p2] [true; true; false]).
Proof.
  unfold patches_z. rewrite (fill_all zero_patch _ _ _ _ (fun P => einsum2 h P (snd (rx g)) (snd (ry g)))).
  - rewrite loops_nest, cells_nest, nest_map. cbn [size]. rewrite Nat.add_1_r. apply nest_ext. intros i j k _ _ _.
    unfold einsum2, cell_quad. cbn [fst snd]. rewrite factor_int, map2_map_l, lsum_map2, rsum_scal.
    apply rsum_ext. intros [a wa] _. cbn [fst snd]. rewrite map2_map_l, lsum_map2, factor_int, rsum_scal.
    apply rsum_ext. intros [b wb] _. cbn [fst snd]. rewrite factor_pt, !stretch_st, !Nat.add_1_r. cbn [fst snd]. field.
  - rewrite loops_nest. apply nest_seq. intros. ring.
Qed.
Lemma volumes_ok : map (fun m => einsum3 h (patches3 (gx g) (gy g) (gz g) p0 p1 p2 (fst (rx g)) (fst (ry g)) (fst (rz g)) m) (snd (rx g)) (snd (ry g)) (snd (rz g)))
    (seq 0 (p0 * p1 * p2)) = map (cell_quad g h) (cells_t [p0; p1; p2] [true; true; true]).
Proof.
  unfold patches3. rewrite (fill_all ([], 0) _ _ _ _ (fun P => einsum3 h P (snd (rx g)) (snd (ry g)) (snd (rz g)))).
  - rewrite loops_nest, cells_nest, nest_map. cbn [size]. apply nest_ext. intros i j k _ _ _.
    unfold einsum3, cell_quad. cbn [fst snd]. rewrite factor_int, map2_map_l, lsum_map2, rsum_scal.
    apply rsum_ext. intros [a wa] _. cbn [fst snd]. rewrite map2_map_l, lsum_map2, factor_int, rsum_scal.
    apply rsum_ext. intros [b wb] _. cbn [fst snd]. rewrite map2_map_l, lsum_map2, factor_int, rsum_scal.
    apply rsum_ext. intros [d wd] _. cbn [fst snd]. rewrite !stretch_st, !Nat.add_1_r. field.
  - rewrite loops_nest. apply nest_seq. intros. ring.
Qed.
End Faces.

Lemma integrand2_ok F J v orth c x y z : (orth = true -> diagonal (J x y z)) ->
  integrand2 F J v orth c x y z = pull2 F J v c x y z.
Proof.
  intros D. unfold integrand2, pull2, cofactors, cofactor_orth, col, cross, dot, csum, through, value, ent, mrow, at_map.
  destruct orth.
  - specialize (D eq_refl). unfold diagonal, ent, mrow in D.
    destruct (J x y z) as [[[[a b] d] [[e f] h]] [[i j] k]].
    assert (D1 := D cX cY ltac:(discriminate)). assert (D2 := D cX cZ ltac:(discriminate)). assert (D3 := D cY cX ltac:(discriminate)).
    assert (D4 := D cY cZ ltac:(discriminate)). assert (D5 := D cZ cX ltac:(discriminate)). assert (D6 := D cZ cY ltac:(discriminate)).
    cbn in D1, D2, D3, D4, D5, D6. subst. destruct c; cbn; ring.
  - destruct (J x y z) as [[[[a b] d] [[e f] h]] [[i j] k]]. destruct c; cbn; ring.
Qed.
Lemma disc2_ok g p0 p1 p2 F J orth v :
  (orth = true -> forall x y z, diagonal (J x y z)) ->
  disc2 (gx g) (gy g) (gz g) p0 p1 p2 (rx g) (ry g) (rz g) F J orth v = map (int2 g F J v) (cells [p0; p1; p2] faces3).
Proof.
  intros D. unfold disc2, cells, faces3. rewrite faces_x_ok, faces_y_ok, faces_z_ok.
  cbn [flat_map]. rewrite app_nil_r, !map_app.
  f_equal; [|f_equal]; apply map_ext_in; intros c Hc; apply cells_along in Hc; try reflexivity;
    unfold int2, normal; rewrite Hc; apply quad_ext; intros; apply integrand2_ok; auto.
Qed.
Lemma disc3_ok g p0 p1 p2 F J f :
  disc3 (gx g) (gy g) (gz g) p0 p1 p2 (rx g) (ry g) (rz g) F J f = map (int3 g F J f) (cells [p0; p1; p2] volumes3).
Proof.
  unfold disc3, cells, volumes3. rewrite volumes_ok. cbn [flat_map]. rewrite app_nil_r. apply map_ext. intros c. apply quad_ext.
  intros x y z. unfold pull3, at_map, through, ct_Jacobian, det3. destruct (J x y z) as [[[[a b] d] [[e f'] h]] [[i j] k]]. cbn. ring.
Qed.
