(* Discretization on 2D elements. *)
From Coq Require Import Reals List Lia Lra Arith ZArith Bool.
From Verif Require Import TfiModel CtModel CtSpec RingSum SpaceModel SpaceSpec SpaceProofs SpaceProofs2 SpaceProofs3.
From Verif Require Import DiscModel DiscSpec DiscProofs DiscProofs2 DiscProofs3 Disc2Model Disc2Spec.
Import ListNotations.
Open Scope R_scope.

(* ---------- closed forms ---------- *)
Definition nest2 {A} (I J : nat) (f : nat -> nat -> A) : list A := nest I J 1 (fun i j _ => f i j).
Lemma nest2_eq {A} I J (f : nat -> nat -> A) : nest2 I J f = flat_map (fun j => map (fun i => f i j) (seq 0 I)) (seq 0 J).
Proof. unfold nest2, nest. cbn [seq flat_map]. apply app_nil_r. Qed.
Lemma nest2_i {A} I J (f : nat -> A) : tile (map f (seq 0 I)) J = nest2 I J (fun i _ => f i).
Proof. unfold nest2. rewrite <- nest_i, Nat.mul_1_r. reflexivity. Qed.
Lemma nest2_j {A} I J (f : nat -> A) : rep (map f (seq 0 J)) I = nest2 I J (fun _ j => f j).
Proof. unfold nest2. rewrite <- nest_j. unfold tile. cbn [repeat concat]. symmetry. apply app_nil_r. Qed.
Lemma cells_nest2 p0 p1 a b : cells_t [p0; p1] [a; b] = nest2 (size p0 a) (size p1 b) (fun i j => [(a, i); (b, j)]).
Proof.
  rewrite nest2_eq. unfold cells_t. cbn [sizes grid flat_map]. rewrite app_nil_r, map_flat_map, flat_map_map.
  apply flat_map_ext. intros j. rewrite map_map. reflexivity.
Qed.
Lemma quad2_Q g h a b : quad2 g h [a; b] = Q (hx g) (sx g) a (fun x => Q (hy g) (sy g) b (fun y => h x y)).
Proof.
  unfold quad2, Q. apply rsum_ext. intros u _. rewrite rsum_scal. apply rsum_ext. intros v _. ring.
Qed.
Lemma quad2_ext g h h' c : (forall x y, h x y = h' x y) -> quad2 g h c = quad2 g h' c.
Proof.
  intros H. unfold quad2. destruct c as [|a [|b [|d c]]]; try reflexivity.
  apply rsum_ext. intros u _. apply rsum_ext. intros v _. rewrite H. reflexivity.
Qed.
Lemma triple_eq {A B C} (a a' : A) (b b' : B) (c c' : C) : a = a' -> b = b' -> c = c' -> (a, b, c) = (a', b', c').
Proof. intros -> -> ->. reflexivity. Qed.
Lemma cell_nodes_eq n p q : length n = S p -> cell_nodes n q = concat (map (fun i => map (st n i) q) (seq 0 p)).
Proof.
  intros H. unfold cell_nodes, colop. rewrite (diffs_seq n p H), (init_seq n p H), map_map, map2_map. f_equal.
  apply map_ext. intros i. rewrite map_map. apply map_ext. intros x. unfold st. field.
Qed.
Lemma reshape_cols n p q : length n = S p ->
  reshapeF (cell_nodes n q) (length q) p = map (fun i => map (st n i) q) (seq 0 p).
Proof.
  intros H. rewrite (cell_nodes_eq n p q H). apply reshapeF_concat.
  - intros c Hc. apply in_map_iff in Hc. destruct Hc as (i & <- & _). apply map_length.
  - rewrite map_length, seq_length. reflexivity.
Qed.
Lemma concat_tile2 {A} (L : list (list A)) m : tile (concat L) m = concat (tile L m).
Proof. induction m as [|m IH]; [reflexivity|]. rewrite !tile_S, IH, concat_app. reflexivity. Qed.

Section Closed.
Variables (g : Grid2) (p0 p1 : nat).
Hypotheses (H0 : length (hx g) = S p0) (H1 : length (hy g) = S p1).
Lemma prep2_x_ok q : prep2_x (hx g) (hy g) p0 p1 q =
  (nest2 p0 (S p1) (fun i _ => map (st (hx g) i) q), nest2 p0 (S p1) (fun _ j => repeat (nd (hy g) j) (length q)),
   nest2 p0 (S p1) (fun i _ => nd (hx g) (S i) - nd (hx g) i)).
Proof.
  unfold prep2_x. rewrite Nat.add_1_r. apply triple_eq.
  - rewrite (cell_nodes_eq _ p0 q H0), concat_tile2, nest2_i. apply reshapeF_concat.
    + rewrite nest2_eq. intros c Hc. apply in_flat_map in Hc. destruct Hc as (j & _ & Hc). apply in_map_iff in Hc.
      destruct Hc as (i & <- & _). apply map_length.
    + rewrite nest2_eq, (length_flat_map_const _ _ p0), seq_length; [lia|]. intros. rewrite map_length, seq_length. reflexivity.
  - rewrite <- flat_map_concat_map. change (flat_map (fun x => repeat x p0) (hy g)) with (rep (hy g) p0).
    rewrite (nodes_seq _ _ H1) at 1. rewrite nest2_j. unfold rows, nest2. rewrite nest_map. reflexivity.
  - rewrite (diffs_seq _ _ H0), nest2_i. reflexivity.
Qed.
Lemma prep2_y_ok q : prep2_y (hx g) (hy g) p0 p1 q =
  (nest2 (S p0) p1 (fun i _ => repeat (nd (hx g) i) (length q)), nest2 (S p0) p1 (fun _ j => map (st (hy g) j) q),
   nest2 (S p0) p1 (fun _ j => nd (hy g) (S j) - nd (hy g) j)).
Proof.
  unfold prep2_y. rewrite Nat.add_1_r. apply triple_eq.
  - rewrite (nodes_seq _ _ H0) at 1. rewrite nest2_i. unfold rows, nest2. rewrite nest_map. reflexivity.
  - rewrite (reshape_cols _ p1 q H1), nest2_j. reflexivity.
  - rewrite (diffs_seq _ _ H1), nest2_j. reflexivity.
Qed.
Lemma pts2_x (h : R -> R -> R) q (s : R -> R) y : map2 h (map s q) (repeat y (length q)) = map (fun x => h (s x) y) q.
Proof. induction q as [|x q IH]; [reflexivity|]. cbn [length repeat map map2]. rewrite IH. reflexivity. Qed.
Lemma pts2_y (h : R -> R -> R) q (s : R -> R) y : map2 h (repeat y (length q)) (map s q) = map (fun x => h y (s x)) q.
Proof. induction q as [|x q IH]; [reflexivity|]. cbn [length repeat map map2]. rewrite IH. reflexivity. Qed.
Lemma part2_x_ok h : part2 (prep2_x (hx g) (hy g) p0 p1 (fst (sx g))) (snd (sx g)) h = map (quad2 g h) (cells_t [p0; p1] [true; false]).
Proof.
  rewrite prep2_x_ok, cells_nest2. unfold part2, einsum1, nest2. rewrite !nest_map, !nest_map2. apply nest_ext. intros i j k _ _ _.
  rewrite pts2_x, line_sum. unfold quad2. rewrite factor_int. apply rsum_ext. intros [q w] _. rewrite !factor_pt. cbn [fst snd]. ring.
Qed.
Lemma part2_y_ok h : part2 (prep2_y (hx g) (hy g) p0 p1 (fst (sy g))) (snd (sy g)) h = map (quad2 g h) (cells_t [p0; p1] [false; true]).
Proof.
  rewrite prep2_y_ok, cells_nest2. unfold part2, einsum1, nest2. rewrite !nest_map, !nest_map2. apply nest_ext. intros i j k _ _ _.
  rewrite pts2_y, line_sum. unfold quad2. rewrite factor_pt, factor_int. apply rsum_ext. intros [q w] _. cbn [fst snd]. ring.
Qed.
Lemma disc2_0_ok F f : disc2_0 (hx g) (hy g) F f = map (int2_0 g F f) (cells [p0; p1] nodes2).
Proof.
  unfold disc2_0, mesh2, cells, nodes2. cbn [flat_map]. rewrite app_nil_r, cells_nest2, nest2_eq. cbn [size].
  rewrite (nodes_seq _ _ H0), (nodes_seq _ _ H1). rewrite flat_map_map, !map_flat_map. apply flat_map_ext. intros j.
  rewrite !map_map. apply map_ext. intros i. unfold int2_0, quad2, at_map2, through2.
  rewrite !factor_pt. cbn [fst snd]. rewrite Rmult_1_l, Rmult_1_r. reflexivity.
Qed.
Lemma disc2_inner_ok F J orth v : (orth = true -> forall x y, diagonal2 (J x y)) ->
  disc2_inner (hx g) (hy g) p0 p1 (sx g) (sy g) F J orth v = map (int2_inner g F J v) (cells [p0; p1] edges2_inner).
Proof.
  intros D. unfold disc2_inner, cells, edges2_inner. rewrite part2_x_ok, part2_y_ok. cbn [flat_map]. rewrite app_nil_r, map_app.
  f_equal; apply map_ext_in; intros c Hc; apply cells_along in Hc; try reflexivity;
    unfold int2_inner, along2; rewrite Hc; apply quad2_ext; intros x y;
    unfold inner_x, inner_y, circ, dot2, mcol, comp, through2, value2, at_map2, diagonal2, emap2, ejac2, fun2, mat22 in *;
    (destruct orth; [specialize (D eq_refl x y)|]; destruct (J x y) as [[a b] [d e]]; cbn [fst snd] in *;
     [destruct D as [-> ->]|]; ring).
Qed.
Lemma disc2_outer_ok F J orth v : (orth = true -> forall x y, diagonal2 (J x y)) ->
  disc2_outer (hx g) (hy g) p0 p1 (sx g) (sy g) F J orth v = map (int2_outer g F J v) (cells [p0; p1] edges2_outer).
Proof.
  intros D. unfold disc2_outer, cells, edges2_outer. rewrite part2_x_ok, part2_y_ok. cbn [flat_map]. rewrite app_nil_r, map_app.
  f_equal; apply map_ext_in; intros c Hc; apply cells_along in Hc; try reflexivity;
    unfold int2_outer, along2, orient_out; rewrite Hc.
  - rewrite Rmult_1_l. apply quad2_ext; intros x y;
    unfold outer_y, flux, cross2, mcol, comp, through2, value2, at_map2, diagonal2, emap2, ejac2, fun2, mat22 in *;
    (destruct orth; [specialize (D eq_refl x y)|]; destruct (J x y) as [[a b] [d e]]; cbn [fst snd] in *;
     [destruct D as [-> ->]|]; ring).
  - assert (forall h, IZR (-1) * quad2 g h c = quad2 g (fun x y => - h x y) c) as ->.
    { intros h. unfold quad2. destruct c as [|a [|b [|d c]]]; try ring. rewrite (Rmult_comm (IZR (-1))), rsum_scal. apply rsum_ext.
      intros. rewrite rsum_scal. apply rsum_ext. intros. ring. }
    apply quad2_ext; intros x y;
    unfold outer_x, flux, cross2, mcol, comp, through2, value2, at_map2, diagonal2, emap2, ejac2, fun2, mat22 in *;
    (destruct orth; [specialize (D eq_refl x y)|]; destruct (J x y) as [[a b] [d e]]; cbn [fst snd] in *;
     [destruct D as [-> ->]|]; ring).
Qed.
Lemma disc2_2_ok F J f : disc2_2 (hx g) (hy g) p0 p1 (sx g) (sy g) F J f = map (int2_2 g F J f) (cells [p0; p1] faces2).
Proof.
  unfold disc2_2, cells, faces2, patches2. cbn [flat_map]. rewrite app_nil_r.
  set (h := fun x y => at_map2 f F x y * ct2_Jacobian (J x y)).
  rewrite (fill_all ([], 0) _ _ _ _ (fun P => einsum2d h P (snd (sx g)) (snd (sy g)))).
  - replace (loops2 p1 p0) with (nest2 p0 p1 (fun i j => (i, j, 0%nat))) by (rewrite nest2_eq; reflexivity).
    rewrite cells_nest2. unfold nest2. rewrite !nest_map. apply nest_ext. intros i j k _ _ _.
    unfold einsum2d, int2_2, quad2. cbn [fst snd]. rewrite factor_int, map2_map_l, lsum_map2, rsum_scal.
    apply rsum_ext. intros [a wa] _. cbn [fst snd]. rewrite map2_map_l, lsum_map2, factor_int, rsum_scal.
    apply rsum_ext. intros [b wb] _. cbn [fst snd]. rewrite !stretch_st, !Nat.add_1_r. unfold h.
    replace (ct2_Jacobian _) with (cross2 (mcol (J (st (hx g) i a) (st (hy g) j b)) false) (mcol (J (st (hx g) i a) (st (hy g) j b)) true)).
    + unfold at_map2, through2, emap2, fun2, mat22. field.
    + unfold cross2, mcol, comp, ct2_Jacobian. destruct (J _ _) as [[? ?] [? ?]]. cbn [fst snd]. ring.
  - replace (loops2 p1 p0) with (nest2 p0 p1 (fun i j => (i, j, 0%nat))) by (rewrite nest2_eq; reflexivity).
    unfold nest2. rewrite nest_map. change (map (fun i => i + 0 * 1)%nat) with (map (fun i : nat => (i + 0)%nat)) || idtac.
    replace (p0 * p1)%nat with (p0 * p1 * 1)%nat by ring. unfold nest. cbn [seq flat_map]. rewrite app_nil_r.
    rewrite Nat.mul_1_r, <- (seq_blocks 0 p0 p1). apply flat_map_ext. intros j. apply map_ext. intros i. lia.
Qed.
End Closed.

(* ---------- commuting ---------- *)
Lemma stokes2_x g h h' i b : (S i < length (hx g))%nat -> (forall x y, derivable_pt_lim (fun s => h s y) x (h' x y)) ->
  integrates_along2 g false h -> quad2 g h' [(true, i); b] = quad2 g h [(false, S i); b] - quad2 g h [(false, i); b].
Proof.
  intros L D X. rewrite !quad2_Q, !Q_pt. rewrite Q_swap, <- Q_minus. apply Q_ext. intros y.
  apply (X y (fun x => h' x y)); [|exact L]. intros x. apply D.
Qed.
Lemma stokes2_y g h h' i a : (S i < length (hy g))%nat -> (forall x y, derivable_pt_lim (fun s => h x s) y (h' x y)) ->
  integrates_along2 g true h -> quad2 g h' [a; (true, i)] = quad2 g h [a; (false, S i)] - quad2 g h [a; (false, i)].
Proof.
  intros L D X. rewrite !quad2_Q, <- Q_minus. apply Q_ext. intros x. rewrite !Q_pt.
  apply (X x (fun y => h' x y)); [|exact L]. intros y. apply D.
Qed.
Lemma quad2_plus g h h' c : quad2 g (fun x y => h x y + h' x y) c = quad2 g h c + quad2 g h' c.
Proof.
  unfold quad2. destruct c as [|a [|b [|d c]]]; try ring.
  rewrite <- rsum_plus. apply rsum_ext. intros u _. rewrite <- rsum_plus. apply rsum_ext. intros. ring.
Qed.
Lemma quad2_minus g h h' c : quad2 g (fun x y => h x y - h' x y) c = quad2 g h c - quad2 g h' c.
Proof.
  unfold quad2. destruct c as [|a [|b [|d c]]]; try ring.
  rewrite <- rsum_minus. apply rsum_ext. intros u _. rewrite <- rsum_minus. apply rsum_ext. intros. ring.
Qed.
(* the edges of the two rules *)
Lemma agree_x n0 n1 r0 r1 s0 s1 h i j : (S i < length n0)%nat -> agree_along2 n0 n1 r0 r1 s0 s1 false h ->
  quad2 (mkGrid2 n0 n1 r0 r1) h [(true, i); (false, j)] = quad2 (mkGrid2 n0 n1 s0 s1) h [(true, i); (false, j)].
Proof.
  intros L A. rewrite !quad2_Q. cbn [hx hy sx sy].
  rewrite (Q_ext n0 r0 (true, i) (fun x => Q n1 r1 (false, j) (fun y => h x y)) (fun x => h x (nd n1 j))) by (intros; apply Q_pt).
  rewrite (Q_ext n0 s0 (true, i) (fun x => Q n1 s1 (false, j) (fun y => h x y)) (fun x => h x (nd n1 j))) by (intros; apply Q_pt).
  exact (A (nd n1 j) i L).
Qed.
Lemma agree_y n0 n1 r0 r1 s0 s1 h i j : (S j < length n1)%nat -> agree_along2 n0 n1 r0 r1 s0 s1 true h ->
  quad2 (mkGrid2 n0 n1 r0 r1) h [(false, i); (true, j)] = quad2 (mkGrid2 n0 n1 s0 s1) h [(false, i); (true, j)].
Proof. intros L A. rewrite !quad2_Q. cbn [hx hy sx sy]. rewrite !Q_pt. exact (A (nd n0 i) j L). Qed.

Lemma lim_dot2 (u0 u1 v0 v1 : R -> R) x a0 a1 b0 b1 :
  derivable_pt_lim u0 x a0 -> derivable_pt_lim u1 x a1 -> derivable_pt_lim v0 x b0 -> derivable_pt_lim v1 x b1 ->
  derivable_pt_lim (fun s => u0 s * v0 s + u1 s * v1 s) x ((a0 * v0 x + u0 x * b0) + (a1 * v1 x + u1 x * b1)).
Proof. intros. apply (derivable_pt_lim_plus (fun s => u0 s * v0 s) (fun s => u1 s * v1 s)); apply derivable_pt_lim_mult; assumption. Qed.

Lemma dot2_comm u v : dot2 u v = dot2 v u.
Proof. unfold dot2. ring. Qed.
Lemma cross2_dot u v : cross2 u v = dot2 (- snd u, fst u) v.
Proof. unfold cross2, dot2. cbn [fst snd]. ring. Qed.

Section Commute2.
Variables (n0 n1 : list R) (r0 r1 s0 s1 : list R * list R) (p0 p1 : nat).
Variables (F : (R -> R -> R) * (R -> R -> R)) (J : R -> R -> (R * R) * (R * R)).
Hypotheses (H0 : length n0 = S p0) (H1 : length n1 = S p1).
Hypothesis HJ : jacobian2_of F J.
(* 1-forms and 2-forms use rules of different degrees *)
Notation gr := (mkGrid2 n0 n1 r0 r1).
Notation gs := (mkGrid2 n0 n1 s0 s1).

Lemma through2_lim f x y G : has_grad2 f (fst F x y) (snd F x y) G ->
  derivable_pt_lim (fun s => through2 f F s y) x (dot2 G (mcol (J x y) false)) /\
  derivable_pt_lim (fun s => through2 f F x s) y (dot2 G (mcol (J x y) true)).
Proof.
  intros HG. destruct (HJ x y) as (A & B & C & D). unfold through2. split.
  - apply (HG (fun i s => if i then snd F s y else fst F s y)); try reflexivity. intros []; assumption.
  - apply (HG (fun i s => if i then snd F x s else fst F x s)); try reflexivity. intros []; assumption.
Qed.
Ltac row2_t Hi :=
  cbn [row_cells flat_map nth_error fst snd bump upd combine app nodes2 edges2_inner edges2_outer faces2 map];
  unfold bsum; cbn [fold_right fst snd]; rewrite ?(zmul_1 RRing), ?(zmul_m1 RRing);
  change (@RingSum.radd RRing) with Rplus; change (@RingSum.ropp RRing) with Ropp; change (@RingSum.r0 RRing) with 0;
  cbn [inb sizes size] in Hi; rewrite !andb_true_iff, !Nat.ltb_lt in Hi; rewrite ?Nat.add_1_r.
Ltac cases2_t Hd Htl Hi i d :=
  destruct i as [|i0 [|i1 [|]]]; destruct d as [|[|d]]; cbn in Hd, Htl; try discriminate; try (destruct d; discriminate);
    injection Hd as <-; injection Htl as <-; try (cbn in Hi; rewrite ?andb_false_r in Hi; discriminate Hi).

Lemma grad2_times f G E : (forall x y, has_grad2 f x y (value2 G x y)) ->
  (forall b, integrates_along2 gr b (through2 f F)) -> EI10 [p0; p1] = Some E ->
  mat_times E (map (int2_0 gr F f) (cells [p0; p1] nodes2)) (map (int2_inner gr F J G) (cells [p0; p1] edges2_inner)).
Proof.
  intros HG X HE. destruct (EI10_acts RRing p0 p1) as (E' & HE' & A). rewrite HE in HE'. injection HE' as <-.
  apply (acts_times _ _ _ _ _ _ _ (nodes2_ok _ _) (edges2i_ok _ _) (tabI10_ok _ _) A). intros d t tl i Hd Htl Hi.
  assert (forall x y, derivable_pt_lim (fun s => through2 f F s y) x (circ F J G false x y) /\
    derivable_pt_lim (fun s => through2 f F x s) y (circ F J G true x y)) as D.
  { intros x y. unfold circ. rewrite !(dot2_comm (mcol _ _)). apply through2_lim. apply HG. }
  cases2_t Hd Htl Hi i d.
  - row2_t Hi. unfold int2_inner, int2_0. cbn [along2 map fst].
    rewrite (stokes2_x gr (through2 f F)); [lra|cbn [hx]; lia|intros; apply D|apply X].
  - row2_t Hi. unfold int2_inner, int2_0. cbn [along2 map fst].
    rewrite (stokes2_y gr (through2 f F)); [lra|cbn [hy]; lia|intros; apply D|apply X].
Qed.
(* the rotated gradient (df/dy, - df/dx) and outer 1-forms *)
Lemma rot2_times f G E : (forall x y, has_grad2 f x y (- snd (value2 G x y), fst (value2 G x y))) ->
  (forall b, integrates_along2 gr b (through2 f F)) -> EO10 [p0; p1] = Some E ->
  mat_times E (map (int2_0 gr F f) (cells [p0; p1] nodes2)) (map (int2_outer gr F J G) (cells [p0; p1] edges2_outer)).
Proof.
  intros HG X HE. destruct (EO10_acts RRing p0 p1) as (E' & HE' & A). rewrite HE in HE'. injection HE' as <-.
  apply (acts_times _ _ _ _ _ _ _ (nodes2_ok _ _) (edges2o_ok _ _) (tabO10_ok _ _) A). intros d t tl i Hd Htl Hi.
  assert (forall x y, derivable_pt_lim (fun s => through2 f F s y) x (flux F J G false x y) /\
    derivable_pt_lim (fun s => through2 f F x s) y (flux F J G true x y)) as D.
  { intros x y. unfold flux. rewrite !cross2_dot. apply through2_lim. apply HG. }
  cases2_t Hd Htl Hi i d.
  - row2_t Hi. unfold int2_outer, int2_0. cbn [along2 orient_out map fst].
    rewrite (stokes2_y gr (through2 f F)); [lra|cbn [hy]; lia|intros; apply D|apply X].
  - row2_t Hi. unfold int2_outer, int2_0. cbn [along2 orient_out map fst].
    rewrite (stokes2_x gr (through2 f F)); [lra|cbn [hx]; lia|intros; apply D|apply X].
Qed.

Variable hxy : R -> R -> plane.
Hypothesis HM : mixed J hxy.
Variables (v : (R -> R -> R) * (R -> R -> R)) (D : R -> R -> plane * plane).
Hypothesis HD : deriv2_of v D.

Lemma v_lim x y :
  derivable_pt_lim (fun s => through2 (fst v) F s y) x (dot2 (fst (through2 D F x y)) (mcol (J x y) false)) /\
  derivable_pt_lim (fun s => through2 (fst v) F x s) y (dot2 (fst (through2 D F x y)) (mcol (J x y) true)) /\
  derivable_pt_lim (fun s => through2 (snd v) F s y) x (dot2 (snd (through2 D F x y)) (mcol (J x y) false)) /\
  derivable_pt_lim (fun s => through2 (snd v) F x s) y (dot2 (snd (through2 D F x y)) (mcol (J x y) true)).
Proof.
  destruct (HD (fst F x y) (snd F x y)) as [A B]. destruct (through2_lim _ x y _ A), (through2_lim _ x y _ B). auto.
Qed.
(* the derivative along x of the circulation density along y, and so on *)
Definition circ_yx (x y : R) : R :=
  (fst (hxy x y) * through2 (fst v) F x y + snd (fst (J x y)) * dot2 (fst (through2 D F x y)) (mcol (J x y) false)) +
  (snd (hxy x y) * through2 (snd v) F x y + snd (snd (J x y)) * dot2 (snd (through2 D F x y)) (mcol (J x y) false)).
Definition circ_xy (x y : R) : R :=
  (fst (hxy x y) * through2 (fst v) F x y + fst (fst (J x y)) * dot2 (fst (through2 D F x y)) (mcol (J x y) true)) +
  (snd (hxy x y) * through2 (snd v) F x y + fst (snd (J x y)) * dot2 (snd (through2 D F x y)) (mcol (J x y) true)).
Lemma circ_lim x y :
  derivable_pt_lim (fun s => circ F J v true s y) x (circ_yx x y) /\
  derivable_pt_lim (fun s => circ F J v false x s) y (circ_xy x y).
Proof.
  destruct (HM x y) as (A & B & C & E). destruct (v_lim x y) as (V1 & V2 & V3 & V4). split.
  - exact (lim_dot2 _ _ _ _ _ _ _ _ _ B E V1 V3).
  - exact (lim_dot2 _ _ _ _ _ _ _ _ _ A C V2 V4).
Qed.
Definition flux_yx (x y : R) : R :=
  (dot2 (fst (through2 D F x y)) (mcol (J x y) false) * snd (snd (J x y)) + through2 (fst v) F x y * snd (hxy x y)) -
  (dot2 (snd (through2 D F x y)) (mcol (J x y) false) * snd (fst (J x y)) + through2 (snd v) F x y * fst (hxy x y)).
Definition flux_xy (x y : R) : R :=
  (dot2 (fst (through2 D F x y)) (mcol (J x y) true) * fst (snd (J x y)) + through2 (fst v) F x y * snd (hxy x y)) -
  (dot2 (snd (through2 D F x y)) (mcol (J x y) true) * fst (fst (J x y)) + through2 (snd v) F x y * fst (hxy x y)).
Lemma flux_lim x y :
  derivable_pt_lim (fun s => flux F J v true s y) x (flux_yx x y) /\
  derivable_pt_lim (fun s => flux F J v false x s) y (flux_xy x y).
Proof.
  destruct (HM x y) as (A & B & C & E). destruct (v_lim x y) as (V1 & V2 & V3 & V4). split.
  - exact (lim_minor _ _ _ _ _ _ _ _ _ V1 E V3 B).
  - exact (lim_minor _ _ _ _ _ _ _ _ _ V2 C V4 A).
Qed.
Lemma curl2_times E :
  integrates_along2 gs false (circ F J v true) -> integrates_along2 gs true (circ F J v false) ->
  (forall b, agree_along2 n0 n1 r0 r1 s0 s1 b (circ F J v b)) ->
  EI21 [p0; p1] = Some E ->
  mat_times E (map (int2_inner gr F J v) (cells [p0; p1] edges2_inner)) (map (int2_2 gs F J (rot2 D)) (cells [p0; p1] faces2)).
Proof.
  intros X Y AG HE. destruct (EI21_acts RRing p0 p1) as (E' & HE' & A). rewrite HE in HE'. injection HE' as <-.
  apply (acts_times _ _ _ _ _ _ _ (edges2i_ok _ _) (faces2_ok _ _) (tabI21_ok _ _) A). intros d t tl i Hd Htl Hi.
  cases2_t Hd Htl Hi i d.
  row2_t Hi. unfold int2_inner, int2_2. cbn [along2 map fst].
  rewrite (quad2_ext gs _ (fun x y => circ_yx x y - circ_xy x y)).
  2:{ intros x y. unfold circ_yx, circ_xy, rot2, cross2, dot2, mcol, comp, through2. cbn [fst snd]. ring. }
  rewrite quad2_minus, (stokes2_x gs (circ F J v true) circ_yx), (stokes2_y gs (circ F J v false) circ_xy);
    [|cbn [hy]; lia|intros; apply circ_lim|exact Y|cbn [hx]; lia|intros; apply circ_lim|exact X].
  rewrite !(agree_x n0 n1 r0 r1 s0 s1 (circ F J v false)), !(agree_y n0 n1 r0 r1 s0 s1 (circ F J v true)) by (try lia; apply AG). lra.
Qed.
Lemma div2_times E :
  integrates_along2 gs false (flux F J v true) -> integrates_along2 gs true (flux F J v false) ->
  (forall b, agree_along2 n0 n1 r0 r1 s0 s1 b (flux F J v b)) ->
  EO21 [p0; p1] = Some E ->
  mat_times E (map (int2_outer gr F J v) (cells [p0; p1] edges2_outer)) (map (int2_2 gs F J (div2 D)) (cells [p0; p1] faces2)).
Proof.
  intros X Y AG HE. destruct (EO21_acts RRing p0 p1) as (E' & HE' & A). rewrite HE in HE'. injection HE' as <-.
  apply (acts_times _ _ _ _ _ _ _ (edges2o_ok _ _) (faces2_ok _ _) (tabO21_ok _ _) A). intros d t tl i Hd Htl Hi.
  cases2_t Hd Htl Hi i d.
  row2_t Hi. unfold int2_outer, int2_2. cbn [along2 orient_out map fst].
  rewrite (quad2_ext gs _ (fun x y => flux_yx x y - flux_xy x y)).
  2:{ intros x y. unfold flux_yx, flux_xy, div2, cross2, dot2, mcol, comp, through2. cbn [fst snd]. ring. }
  rewrite quad2_minus, (stokes2_x gs (flux F J v true) flux_yx), (stokes2_y gs (flux F J v false) flux_xy);
    [|cbn [hy]; lia|intros; apply flux_lim|exact Y|cbn [hx]; lia|intros; apply flux_lim|exact X].
  rewrite !(agree_x n0 n1 r0 r1 s0 s1 (flux F J v false)), !(agree_y n0 n1 r0 r1 s0 s1 (flux F J v true)) by (try lia; apply AG). lra.
Qed.
End Commute2.
