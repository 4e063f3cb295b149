(* Discretization of trace forms: integrals over the side, the trace of the
   discretization of a standard form, and both elements of a trace element. *)
From Coq Require Import Reals List ZArith Lia Lra Bool Psatz.
From Verif Require SpaceProofs SpaceProofs5 SpaceProofs8.
From Verif Require Import TfiModel TfiSpec CtModel CtSpec CtProofs RingSum SpaceSpec SpaceModel DiscModel DiscSpec DiscProofs DiscProofs2
  ReconModel ReconSpec ReconProofs ReconProofs2 ReconProofs3 TrfModel TrfSpec TrfProofs.
Import ListNotations.
Open Scope R_scope.

Lemma metric_area J s : tr_metric (tr_Jacobian_matrix J s) = dot (area_vec J s) (area_vec J s).
Proof.
  open_mat J. destruct s; unfold tr_metric, tr_metric_matrix, tr_Jacobian_matrix, area_vec, col, ent, mrow, cross, dot, csum; cbn [across next TfiModel.get]; ring.
Qed.
Lemma sqrt_metric J s : sqrt (tr_metric (tr_Jacobian_matrix J s)) = norm (area_vec J s).
Proof. unfold norm. rewrite metric_area. reflexivity. Qed.
Lemma norm_pos v : v <> zero_vec -> 0 < norm v.
Proof.
  intros H. unfold norm. apply sqrt_lt_R0. destruct v as [[a b] c]. unfold dot, csum. cbn [TfiModel.get].
  destruct (Req_dec a 0) as [A|A]; [destruct (Req_dec b 0) as [B|B]; [destruct (Req_dec c 0) as [C|C]|]|]; [exfalso; apply H; subst; reflexivity| | |]; nra.
Qed.
Lemma normal_component F J s v x y z : normal_part F J s v x y z = component (area_vec (J x y z) s) (through (value v) F x y z).
Proof.
  unfold normal_part, component. rewrite unit_normal_form.
  assert (E : cross (fst (tcols (tr_Jacobian_matrix (J x y z) s))) (snd (tcols (tr_Jacobian_matrix (J x y z) s))) = area_vec (J x y z) s).
  { generalize (J x y z). intros M. open_mat M. destruct s; unfold area_vec, col, ent, mrow, cross; cbn; reflexivity. }
  rewrite E. unfold norm, through, value, at_map. destruct (area_vec (J x y z) s) as [[a b] c]. cbn [scal]. unfold dot, csum. cbn [TfiModel.get]. unfold Rdiv. ring.
Qed.
Lemma flux_pull F J s v x y z : area_vec (J x y z) s <> zero_vec ->
  normal_part F J s v x y z * norm (area_vec (J x y z) s) = pull2 F J v (across s) x y z.
Proof. intros H. rewrite normal_component. unfold component, pull2, area_vec. fold (area_vec (J x y z) s). field. pose proof (norm_pos _ H). unfold area_vec in *. lra. Qed.

Lemma side_normal p0 p1 p2 s c : In c (side_cells [p0; p1; p2] faces3 s) -> normal c = across s.
Proof. rewrite (side_cells_loops D2). intros H. apply in_loops in H as (i & j & _ & _ & ->). destruct s; reflexivity. Qed.

Section Disc.
Variables (g : Grid) (p0 p1 p2 : nat).
Hypotheses (L : lengths_ok g p0 p1 p2) (E : ends_ok g p0 p1 p2).
Theorem trf_disc0_ok F f s : trf_disc0 (gx g) (gy g) (gz g) F s f = map (int0 g F f) (side_cells [p0; p1; p2] nodes3 s).
Proof. exact (side_nodes_ok g p0 p1 p2 L E (at_map f F) s). Qed.
Theorem trf_disc0v_ok F J v s : trf_disc0v (gx g) (gy g) (gz g) F J s v = map (int_normal g F J s v) (side_cells [p0; p1; p2] nodes3 s).
Proof.
  unfold trf_disc0v. rewrite (side_nodes_ok g p0 p1 p2 L E (normal_part F J s v) s). apply map_ext. intros c. unfold int_normal.
  apply quad_ext. intros. apply normal_component.
Qed.
Theorem trf_disc2_ok F J f s : trf_disc2 (gx g) (gy g) (gz g) p0 p1 p2 (rx g) (ry g) (rz g) F J s f =
  map (int_area g F J s f) (side_cells [p0; p1; p2] faces3 s).
Proof.
  unfold trf_disc2. rewrite (side_faces_ok g p0 p1 p2 L E). apply map_ext. intros c. unfold int_area. apply quad_ext. intros.
  unfold side_metric. cbn [at_pt]. rewrite sqrt_metric. reflexivity.
Qed.
Theorem trf_disc2v_ok F J v s : grid_ok g -> on_face s (fun x y z => area_vec (J x y z) s <> zero_vec) ->
  trf_disc2v (gx g) (gy g) (gz g) p0 p1 p2 (rx g) (ry g) (rz g) F J s v = map (int2 g F J v) (side_cells [p0; p1; p2] faces3 s).
Proof.
  intros G A. unfold trf_disc2v. rewrite (side_faces_ok g p0 p1 p2 L E). apply map_ext_in. intros c Hc. unfold int2. rewrite (side_normal p0 p1 p2 s c Hc).
  apply (side_quad_ext g p0 p1 p2 s D2); try assumption. intros x y z X Y Z H. unfold side_metric. cbn [at_pt]. rewrite sqrt_metric. apply flux_pull. apply A; assumption.
Qed.
End Disc.

(* ---------- the trace of a cochain ---------- *)
Lemma restrict_map p ts s (W : cell -> R) : restrict_to p ts s (map W (cells p ts)) = map W (side_cells p ts s).
Proof.
  unfold restrict_to, side_cells. induction (cells p ts) as [|c l IH]; [reflexivity|]. cbn [map combine filter fst].
  destruct (on_side p (on_the s) c); cbn [map snd]; rewrite IH; reflexivity.
Qed.
Lemma sides_on : map on_the all_sides = sides3.
Proof. reflexivity. Qed.
Lemma zmul_R z (x : RRing) : zmul z x = IZR z * x.
Proof.
  assert (A : forall n, nmul n x = INR n * x).
  { induction n as [|n IH]; [cbn; ring|]. rewrite S_INR. cbn [nmul]. rewrite IH. cbn. ring. }
  destruct z as [|q|q]; cbn [zmul]; [cbn; ring| |]; rewrite A.
  - rewrite INR_IPR. reflexivity.
  - rewrite INR_IPR. cbn. change (IZR (Z.neg q)) with (- IPR q). ring.
Qed.
Lemma traces_apply sg p ts T (W : cell -> R) : NoDup (cells p ts) -> restricts (on_sides p ts sides3) (cells p ts) sg T ->
  mat_times T (map W (cells p ts)) (signed_traces sg p ts (map W (cells p ts))).
Proof.
  intros N H.
  assert (E : signed_traces sg p ts (map W (cells p ts)) = map (fun sx => IZR (sg (fst sx)) * W (snd sx)) (on_sides p ts sides3)).
  { unfold signed_traces, on_sides. rewrite <- sides_on, DiscProofs2.flat_map_map, map_flat_map. apply flat_map_ext'. intros s. rewrite restrict_map, !map_map.
    reflexivity. }
  rewrite E. intros r Hr. rewrite map_length in Hr. destruct (nth_error (on_sides p ts sides3) r) as [[s x]|] eqn:Er; [|apply nth_error_None in Er; lia].
  rewrite (nth_error_nth (map _ _) r 0 (map_nth_error _ _ _ Er)). cbn [fst snd].
  assert (Ix : In x (cells p ts)).
  { apply nth_error_In in Er. unfold on_sides in Er. apply in_flat_map in Er as (s' & _ & Er). apply in_map_iff in Er as (x' & Ex & Er). injection Ex as _ ->.
    apply filter_In in Er. apply Er. }
  apply In_nth_error in Ix as [n Hn].
  rewrite map_length, (SpaceProofs8.restricts_apply RRing _ _ _ _ _ r s x n N H Er Hn), zmul_R.
  rewrite (nth_error_nth (map W (cells p ts)) n 0 (map_nth_error W n _ Hn)). reflexivity.
Qed.
Lemma traces_ok sg p ts T c : SpaceProofs.types_ok p ts -> length c = length (cells p ts) -> restricts (on_sides p ts sides3) (cells p ts) sg T ->
  mat_times T c (signed_traces sg p ts c).
Proof. intros K Lc H. rewrite (as_map (cells p ts) c (SpaceProofs.NoDup_cells p ts K) Lc). apply traces_apply; [apply SpaceProofs.NoDup_cells; exact K|exact H]. Qed.

(* ---------- the two elements of a trace element ---------- *)
Lemma map2_ext {A B C} (f h : A -> B -> C) l m : (forall a b, f a b = h a b) -> map2 f l m = map2 h l m.
Proof. intros H. revert m. induction l as [|x l IH]; intros [|y m]; try reflexivity. cbn [map2]. rewrite H, IH. reflexivity. Qed.
Lemma with_ext h h' n0 n1 n2 p0 p1 p2 r0 r1 r2 s : (forall ab, side_at h s ab = side_at h' (opposite s) ab) ->
  trf_disc2_with h n0 n1 n2 p0 p1 p2 r0 r1 r2 s = trf_disc2_with h' n0 n1 n2 p0 p1 p2 r0 r1 r2 (opposite s).
Proof.
  intros H. unfold trf_disc2_with. replace (side_pair (opposite s) n0 n1 n2) with (side_pair s n0 n1 n2) by (destruct s; reflexivity).
  replace (side_pair (opposite s) p0 p1 p2) with (side_pair s p0 p1 p2) by (destruct s; reflexivity).
  replace (side_pair (opposite s) r0 r1 r2) with (side_pair s r0 r1 r2) by (destruct s; reflexivity).
  destruct (side_pair s n0 n1 n2) as [na nb], (side_pair s p0 p1 p2) as [pa pb], (side_pair s r0 r1 r2) as [ra rb].
  apply map2_ext. intros cell area. f_equal. apply map2_ext. intros row a. f_equal. apply map2_ext. intros ab b. rewrite H. reflexivity.
Qed.
Lemma lim_same f h x a b : (forall t, f t = h t) -> derivable_pt_lim f x a -> derivable_pt_lim h x b -> a = b.
Proof.
  intros H A B. apply (uniqueness_limite h x); [|exact B]. intros eps He. destruct (A eps He) as [d Hd]. exists d. intros k K0 K1. rewrite <- !H. apply Hd; assumption.
Qed.
Section Shared.
Variables (F F' : coord -> R -> R -> R -> R) (J J' : R -> R -> R -> mat3) (s : tside).
Hypotheses (M : meets s F F') (D : jacobian_of F J) (D' : jacobian_of F' J').
Lemma same_points c ab : side_at (F c) s ab = side_at (F' c) (opposite s) ab.
Proof.
  unfold side_at. destruct ab as [a b]. destruct s; cbn [full_ep at_pt fst snd opposite];
  match goal with |- F c ?x ?y ?z = _ => pose proof (M c x y z eq_refl) as E end; cbn [across] in E; rewrite E; f_equal; lra.
Qed.
Lemma same_column c d ab : d <> across s -> TfiModel.get (mrow (side_at J s ab) c) d = TfiModel.get (mrow (side_at J' (opposite s) ab) c) d.
Proof.
  intros N. unfold side_at. destruct ab as [a b]. destruct s; cbn [full_ep at_pt fst snd opposite across] in *;
  match goal with |- TfiModel.get (mrow (J ?x ?y ?z) c) d = TfiModel.get (mrow (J' ?x' ?y' ?z') c) d =>
    pose proof (D c x y z) as A; pose proof (D' c x' y' z') as B; destruct (mrow (J x y z) c) as [[u v] w]; destruct (mrow (J' x' y' z') c) as [[u' v'] w'] end;
  destruct A as (A0 & A1 & A2), B as (B0 & B1 & B2); destruct d; try congruence; cbn [TfiModel.get];
  first [refine (lim_same _ _ _ _ _ _ A0 B0)|refine (lim_same _ _ _ _ _ _ A1 B1)|refine (lim_same _ _ _ _ _ _ A2 B2)]; intros t;
  match goal with |- F c ?x ?y ?z = _ => pose proof (M c x y z eq_refl) as E end; cbn [across] in E; rewrite E; f_equal; lra.
Qed.
Lemma same_area ab : area_vec (side_at J s ab) s = area_vec (side_at J' (opposite s) ab) (opposite s).
Proof.
  assert (C : forall c d, d <> across s -> ent (side_at J s ab) c d = ent (side_at J' (opposite s) ab) c d).
  { intros c d N. pose proof (same_column c d ab N) as H. unfold ent. destruct c; exact H. }
  assert (X : forall d, d <> across s -> col (side_at J s ab) d = col (side_at J' (opposite s) ab) d).
  { intros d N. unfold col. rewrite !C by exact N. reflexivity. }
  unfold area_vec. replace (across (opposite s)) with (across s) by (destruct s; reflexivity).
  rewrite !X; [reflexivity| |]; destruct s; discriminate.
Qed.
Lemma at_side {A B} (f : A -> B) (h : R -> R -> R -> A) ab t : side_at (fun x y z => f (h x y z)) t ab = f (side_at h t ab).
Proof. unfold side_at. destruct (full_ep t (fst ab) (snd ab)) as [[x y] z]. reflexivity. Qed.
Lemma same_scalar f ab : side_at (at_map f F) s ab = side_at (at_map f F') (opposite s) ab.
Proof.
  pose proof (same_points cX ab) as X. pose proof (same_points cY ab) as Y. pose proof (same_points cZ ab) as Z. unfold side_at in *.
  destruct (full_ep s (fst ab) (snd ab)) as [[x y] z], (full_ep (opposite s) (fst ab) (snd ab)) as [[x' y'] z']. cbn [at_pt] in *. unfold at_map. rewrite X, Y, Z. reflexivity.
Qed.
Lemma same_normal v ab : side_at (normal_part F J s v) s ab = side_at (normal_part F' J' (opposite s) v) (opposite s) ab.
Proof.
  pose proof (same_scalar (v cX) ab) as X. pose proof (same_scalar (v cY) ab) as Y. pose proof (same_scalar (v cZ) ab) as Z. pose proof (same_area ab) as A. unfold side_at in *.
  destruct (full_ep s (fst ab) (snd ab)) as [[x y] z], (full_ep (opposite s) (fst ab) (snd ab)) as [[x' y'] z']. cbn [at_pt] in *. rewrite !normal_component, A.
  unfold at_map in X, Y, Z. unfold through, value. rewrite X, Y, Z. reflexivity.
Qed.
Lemma same_metric ab : side_at (fun x y z => sqrt (side_metric J s (x, y, z))) s ab = side_at (fun x y z => sqrt (side_metric J' (opposite s) (x, y, z))) (opposite s) ab.
Proof.
  pose proof (same_area ab) as A. unfold side_at in *.
  destruct (full_ep s (fst ab) (snd ab)) as [[x y] z], (full_ep (opposite s) (fst ab) (snd ab)) as [[x' y'] z']. cbn [at_pt] in *. unfold side_metric. cbn [at_pt]. rewrite !sqrt_metric, A. reflexivity.
Qed.
Lemma grid_ext (h h' : R -> R -> R -> R) n0 n1 n2 : (forall ab, side_at h s ab = side_at h' (opposite s) ab) ->
  (let (a, b) := side_pair s n0 n1 n2 in map (side_at h s) (grid2F a b)) = (let (a, b) := side_pair (opposite s) n0 n1 n2 in map (side_at h' (opposite s)) (grid2F a b)).
Proof.
  intros H. replace (side_pair (opposite s) n0 n1 n2) with (side_pair s n0 n1 n2) by (destruct s; reflexivity). destruct (side_pair s n0 n1 n2). apply map_ext. exact H.
Qed.
Lemma at_mult (f h : R -> R -> R -> R) ab t : side_at (fun x y z => f x y z * h x y z) t ab = side_at f t ab * side_at h t ab.
Proof. unfold side_at. destruct (full_ep t (fst ab) (snd ab)) as [[x y] z]. reflexivity. Qed.
Theorem shared_ok n0 n1 n2 p0 p1 p2 r0 r1 r2 f v :
  trf_disc0 n0 n1 n2 F s f = trf_disc0 n0 n1 n2 F' (opposite s) f /\
  trf_disc0v n0 n1 n2 F J s v = trf_disc0v n0 n1 n2 F' J' (opposite s) v /\
  trf_disc2 n0 n1 n2 p0 p1 p2 r0 r1 r2 F J s f = trf_disc2 n0 n1 n2 p0 p1 p2 r0 r1 r2 F' J' (opposite s) f /\
  trf_disc2v n0 n1 n2 p0 p1 p2 r0 r1 r2 F J s v = trf_disc2v n0 n1 n2 p0 p1 p2 r0 r1 r2 F' J' (opposite s) v.
Proof.
  repeat split.
  - apply grid_ext. apply same_scalar.
  - apply grid_ext. apply same_normal.
  - apply with_ext. intros ab. rewrite (at_mult (at_map f F)), (at_mult (at_map f F')), same_scalar, same_metric. reflexivity.
  - apply with_ext. intros ab. rewrite (at_mult (normal_part F J s v)), (at_mult (normal_part F' J' (opposite s) v)), same_normal, same_metric. reflexivity.
Qed.
End Shared.
