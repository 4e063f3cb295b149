(* C134-C137: 0- and 2-trace forms of 3D structured meshes. *)
From Coq Require Import Reals List ZArith Lra Lia.
From Verif Require Import TfiModel TfiSpec CtModel CtSpec RingSum SpaceModel SpaceSpec DiscModel DiscSpec DiscExample ReconModel ReconSpec ReconExample.
From Verif Require Import DiscProofs2 ReconProofs TrfModel TrfSpec TrfProofs TrfProofs2 TrfProofs3 TrfProofs4 TrfExample.
Import ListNotations.
Open Scope R_scope.

(* ---------- C134: 2-traces ---------- *)
(* the cochain of the flux of a vector through a side is the part of the cochain
   of its 2-form that belongs to the side *)
Theorem C134_trace : forall g p0 p1 p2, lengths_ok g p0 p1 p2 -> ends_ok g p0 p1 p2 ->
  forall F J orth v s, grid_ok g -> (orth = true -> forall x y z, diagonal (J x y z)) ->
  on_face s (fun x y z => area_vec (J x y z) s <> zero_vec) ->
  trf_disc2v (gx g) (gy g) (gz g) p0 p1 p2 (rx g) (ry g) (rz g) F J s v =
  restrict_to [p0; p1; p2] faces3 s (disc2 (gx g) (gy g) (gz g) p0 p1 p2 (rx g) (ry g) (rz g) F J orth v).
Proof. exact trace_disc2. Qed.
Print Assumptions C134_trace.
Example C134_trace_ex : forall s, trf_disc2v (gx exg) (gy exg) (gz exg) 2 1 1 (rx exg) (ry exg) (rz exg) hF tJ s tv =
  restrict_to [2; 1; 1]%nat faces3 s (disc2 (gx exg) (gy exg) (gz exg) 2 1 1 (rx exg) (ry exg) (rz exg) hF tJ false tv).
Proof. intros s. apply trace_disc2; [exact ex_lengths|exact ex_ends|exact ex_grid|discriminate|apply ex_area]. Qed.

(* its entries are the integrals of the flux over the faces of the side *)
Theorem C134_flux : forall g p0 p1 p2, lengths_ok g p0 p1 p2 -> ends_ok g p0 p1 p2 ->
  forall F J v s, grid_ok g -> on_face s (fun x y z => area_vec (J x y z) s <> zero_vec) ->
  trf_disc2v (gx g) (gy g) (gz g) p0 p1 p2 (rx g) (ry g) (rz g) F J s v = map (int2 g F J v) (side_cells [p0; p1; p2] faces3 s).
Proof. exact trf_disc2v_ok. Qed.
Print Assumptions C134_flux.
Example C134_flux_ex : trf_disc2v (gx exg) (gy exg) (gz exg) 2 1 1 (rx exg) (ry exg) (rz exg) hF tJ tS tv = [-4].
Proof.
  rewrite (trf_disc2v_ok exg 2 1 1 ex_lengths ex_ends hF tJ tv tS ex_grid (ex_area tS)).
  change (side_cells [2; 1; 1]%nat faces3 tS) with [[(false, 2%nat); (true, 0%nat); (true, 0%nat)]]. cbn [map]. f_equal.
  unfold int2, cell_quad, factor_rule, exg, mid, rsum. cbn. unfold pull2, dot, csum, cross, col, ent, mrow, tJ, through, value, tv, hF. cbn. field.
Qed.

(* the integrals of a scalar over the faces of the side, by their area *)
Theorem C134_scalar : forall g p0 p1 p2, lengths_ok g p0 p1 p2 -> ends_ok g p0 p1 p2 ->
  forall F J f s, trf_disc2 (gx g) (gy g) (gz g) p0 p1 p2 (rx g) (ry g) (rz g) F J s f =
  map (int_area g F J s f) (side_cells [p0; p1; p2] faces3 s).
Proof. exact trf_disc2_ok. Qed.
Print Assumptions C134_scalar.
Example C134_scalar_ex : trf_disc2 (gx exg) (gy exg) (gz exg) 2 1 1 (rx exg) (ry exg) (rz exg) hF tJ tF (fun _ _ _ => 3) = [6; 6].
Proof.
  rewrite (trf_disc2_ok exg 2 1 1 ex_lengths ex_ends).
  change (side_cells [2; 1; 1]%nat faces3 tF) with [[(true, 0%nat); (true, 0%nat); (false, 1%nat)]; [(true, 1%nat); (true, 0%nat); (false, 1%nat)]].
  assert (N : forall a b c, b = 0 -> norm (area_vec (tJ a b c) tF) = 1).
  { intros a b c ->. unfold norm, area_vec, dot, csum, cross, col, ent, mrow, tJ. cbn. transitivity (sqrt 1); [f_equal; field|apply sqrt_1]. }
  cbn [map]. unfold int_area, cell_quad, exg, mid, rsum, through. cbn [gx gy gz rx ry rz factor_rule nth fold_right fst snd map2 combine map].
  rewrite !N by (cbn; field). cbn. f_equal; [field|f_equal; field].
Qed.

(* the trace matrix times the cochain of the 2-form is the cochain of the
   outward flux, side by side *)
Theorem C134_matrix : forall g p0 p1 p2, lengths_ok g p0 p1 p2 -> ends_ok g p0 p1 p2 -> Forall (fun n => 1 <= n)%nat [p0; p1; p2] ->
  forall F J orth v, grid_ok g -> (orth = true -> forall x y z, diagonal (J x y z)) ->
  (forall s, on_face s (fun x y z => area_vec (J x y z) s <> zero_vec)) -> exists M, trace2 outward [p0; p1; p2] = Some M /\
  mat_times M (disc2 (gx g) (gy g) (gz g) p0 p1 p2 (rx g) (ry g) (rz g) F J orth v)
    (flat_map (fun s => map (Rmult (if upper s then 1 else -1)) (trf_disc2v (gx g) (gy g) (gz g) p0 p1 p2 (rx g) (ry g) (rz g) F J s v)) all_sides).
Proof. exact trace_matrix2. Qed.
Print Assumptions C134_matrix.
Example C134_matrix_ex : exists M, trace2 outward [2; 1; 1]%nat = Some M /\
  mat_times M (disc2 (gx exg) (gy exg) (gz exg) 2 1 1 (rx exg) (ry exg) (rz exg) hF tJ false tv)
    (flat_map (fun s => map (Rmult (if upper s then 1 else -1)) (trf_disc2v (gx exg) (gy exg) (gz exg) 2 1 1 (rx exg) (ry exg) (rz exg) hF tJ s tv)) all_sides).
Proof. apply trace_matrix2; [exact ex_lengths|exact ex_ends|repeat constructor|exact ex_grid|discriminate|exact ex_area]. Qed.

(* the cochain on a trace element is the same from either of its elements *)
Theorem C134_shared : forall F F' J J' s, meets s F F' -> jacobian_of F J -> jacobian_of F' J' ->
  forall n0 n1 n2 p0 p1 p2 r0 r1 r2 f v,
  trf_disc0 n0 n1 n2 F s f = trf_disc0 n0 n1 n2 F' (opposite s) f /\
  trf_disc0v n0 n1 n2 F J s v = trf_disc0v n0 n1 n2 F' J' (opposite s) v /\
  trf_disc2 n0 n1 n2 p0 p1 p2 r0 r1 r2 F J s f = trf_disc2 n0 n1 n2 p0 p1 p2 r0 r1 r2 F' J' (opposite s) f /\
  trf_disc2v n0 n1 n2 p0 p1 p2 r0 r1 r2 F J s v = trf_disc2v n0 n1 n2 p0 p1 p2 r0 r1 r2 F' J' (opposite s) v.
Proof. exact shared_ok. Qed.
Print Assumptions C134_shared.
Example C134_shared_ex : trf_disc2v (gx exg) (gy exg) (gz exg) 2 1 1 (rx exg) (ry exg) (rz exg) hF' tJ' tN tv = [-4].
Proof.
  rewrite <- C134_flux_ex. symmetry. exact (proj2 (proj2 (proj2 (shared_ok hF hF' tJ tJ' tS ex_meets ex_tJ ex_tJ' _ _ _ _ _ _ _ _ _ tq tv)))).
Qed.

(* ---------- C135: 0-traces ---------- *)
(* the cochain of a scalar is the part of the cochain of its 0-form *)
Theorem C135_trace : forall g p0 p1 p2, lengths_ok g p0 p1 p2 -> ends_ok g p0 p1 p2 ->
  forall F f s, trf_disc0 (gx g) (gy g) (gz g) F s f = restrict_to [p0; p1; p2] nodes3 s (disc0 (gx g) (gy g) (gz g) F f).
Proof. exact trace_disc0. Qed.
Print Assumptions C135_trace.
Example C135_trace_ex : restrict_to [2; 1; 1]%nat nodes3 tS (disc0 (gx exg) (gy exg) (gz exg) hF tq) = [- (3 / 2); 1 / 2; 1 / 2; 5 / 2].
Proof.
  rewrite <- (trace_disc0 exg 2 1 1 ex_lengths ex_ends). unfold trf_disc0, grid2F, exg, side_at, at_map, tq, hF. cbn.
  repeat (apply f_equal2; [field|]). reflexivity.
Qed.

(* ... of a vector: the values of its normal component *)
Theorem C135_normal : forall g p0 p1 p2, lengths_ok g p0 p1 p2 -> ends_ok g p0 p1 p2 ->
  forall F J v s, trf_disc0v (gx g) (gy g) (gz g) F J s v = map (int_normal g F J s v) (side_cells [p0; p1; p2] nodes3 s).
Proof. exact trf_disc0v_ok. Qed.
Print Assumptions C135_normal.
Example C135_normal_ex : trf_disc0v (gx exg) (gy exg) (gz exg) hF tJ tE (fun _ _ _ _ => 5) = [5; 5; 5; 5; 5; 5].
Proof.
  rewrite (trf_disc0v_ok exg 2 1 1 ex_lengths ex_ends).
  assert (C : forall x z, component (area_vec (tJ x 1 z) tE) (5, 5, 5) = 5).
  { intros x z. unfold component. assert (norm (area_vec (tJ x 1 z) tE) = 3 / 2) as ->.
    - unfold norm, area_vec, dot, csum, cross, col, ent, mrow, tJ. cbn. transitivity (sqrt (3 / 2 * (3 / 2))); [f_equal; field|apply sqrt_square; lra].
    - unfold area_vec, dot, csum, cross, col, ent, mrow, tJ. cbn. field. }
  rewrite (side_cells_loops D0). unfold two_loops. cbn [side_pair fst snd kind size seq flat_map map app]. unfold side_cell, end_no. cbn [across upper kind].
  unfold int_normal, cell_quad. cbn [exg gx gy gz rx ry rz factor_rule nth rsum fold_right fst snd]. unfold through, value. rewrite !C.
  repeat (apply f_equal2; [field|]). reflexivity.
Qed.

(* the trace matrix times the cochain of the 0-form *)
Theorem C135_matrix : forall g p0 p1 p2, lengths_ok g p0 p1 p2 -> ends_ok g p0 p1 p2 -> Forall (fun n => 1 <= n)%nat [p0; p1; p2] ->
  forall F f, exists M, trace0 outward [p0; p1; p2] = Some M /\
  mat_times M (disc0 (gx g) (gy g) (gz g) F f)
    (flat_map (fun s => map (Rmult (if upper s then 1 else -1)) (trf_disc0 (gx g) (gy g) (gz g) F s f)) all_sides).
Proof. exact trace_matrix0. Qed.
Print Assumptions C135_matrix.
Example C135_matrix_ex : exists M, trace0 outward [2; 1; 1]%nat = Some M /\
  mat_times M (disc0 (gx exg) (gy exg) (gz exg) hF tq)
    (flat_map (fun s => map (Rmult (if upper s then 1 else -1)) (trf_disc0 (gx exg) (gy exg) (gz exg) hF s tq)) all_sides).
Proof. apply trace_matrix0; [exact ex_lengths|exact ex_ends|repeat constructor]. Qed.

(* ---------- C136: reconstruction ---------- *)
(* values of a 0-trace *)
Theorem C136_nodes : forall sp m s c,
  array_of (side_mesh s m) (trf_recon0 sp m s c) (fun x y z v => v = side_hat D0 sp s c x y z).
Proof. exact trf_recon0_ok. Qed.
Print Assumptions C136_nodes.
Example C136_nodes_ex : at_index (side_mesh tS (mkMesh3 [] [0; 1] [0])) (trf_recon0 sp (mkMesh3 [] [0; 1] [0]) tS [1; 2; 3; 4]) 0%nat 1%nat 0%nat = Some 3.
Proof.
  destruct (trf_recon0_ok sp (mkMesh3 [] [0; 1] [0]) tS [1; 2; 3; 4] 0%nat 1%nat 0%nat) as (v & -> & ->). f_equal.
  unfold side_hat. cbn. field.
Qed.

(* values of a 2-trace: fluxes by the area *)
Theorem C136_faces : forall sp m J s c, on_grid (side_mesh s m) (fun x y z => area_vec (J x y z) s <> zero_vec) ->
  array_of (side_mesh s m) (trf_recon2 sp m J s c) (fun x y z v => v * norm (area_vec (J x y z) s) = side_hat D2 sp s c x y z).
Proof. exact trf_recon2_ok. Qed.
Print Assumptions C136_faces.
Example C136_faces_ex : forall s, array_of (side_mesh s (qmesh exq)) (trf_recon2 sp (qmesh exq) tJ s [8; 4])
  (fun x y z v => v * norm (area_vec (tJ x y z) s) = side_hat D2 sp s [8; 4] x y z).
Proof. intros s. apply trf_recon2_ok. apply ex_area_q. Qed.

(* the trace of a reconstructed 0- or 2-form is the reconstruction of the part
   of its cochain on the side *)
Theorem C136_trace : forall g sp, basis3_of g sp -> ends_ok g (pdeg (s0 sp)) (pdeg (s1 sp)) (pdeg (s2 sp)) ->
  forall k s c, length c = length (cells (degrees sp) (types_of k)) -> forall x y z, TfiModel.get (x, y, z) (across s) = end_pt s ->
  side_hat k sp s (restrict_to (degrees sp) (types_of k) s c) x y z =
  match k with D0 => hat0 sp c | D2 => hat2 sp c (across s) end x y z.
Proof. exact trace_hat. Qed.
Print Assumptions C136_trace.
Example C136_trace_ex : side_hat D2 sp tS (restrict_to [2; 1; 1]%nat faces3 tS [1; 2; 3; 4; 5; 6; 7; 8; 9; 10; 11]) 1 0 0 = 3 / 4.
Proof. unfold side_hat, restrict_to. cbn. field. Qed.

(* the value of the trace of a 2-form is the normal component of its vector *)
Theorem C136_normal : forall g sp s c J x y z u w, basis3_of g sp -> ends_ok g (pdeg (s0 sp)) (pdeg (s1 sp)) (pdeg (s2 sp)) ->
  length c = length (cells (degrees sp) faces3) -> TfiModel.get (x, y, z) (across s) = end_pt s -> area_vec J s <> zero_vec ->
  pulls2 J u (fun d => hat2 sp c d x y z) -> w * norm (area_vec J s) = side_hat D2 sp s (restrict_to (degrees sp) faces3 s c) x y z ->
  w = component (area_vec J s) u.
Proof. exact normal_value. Qed.
Print Assumptions C136_normal.
Example C136_normal_ex : forall w, w * norm (area_vec (exJ 1 0 0) tS) = side_hat D2 sp tS (restrict_to (degrees sp) faces3 tS exc2) 1 0 0 ->
  w = component (area_vec (exJ 1 0 0) tS) (through (value exw) exF 1 0 0).
Proof.
  intros w H. apply (normal_value exg sp tS exc2 (exJ 1 0 0) 1 0 0); [exact ex_basis|exact ex_ends|reflexivity|reflexivity| |apply ex_hat2|exact H].
  unfold area_vec, exJ, col, ent, mrow, cross, zero_vec. cbn. intros Z. injection Z as Z0 Z1 Z2. lra.
Qed.

(* ---------- C137: mass matrices, and discretization of reconstructed forms ---------- *)
(* the mass matrices give the integrals of products over the side *)
Theorem C137_nodes : forall sp q J s a b, rules_ok q -> bilinear (trf_mass D0 sp q J s) a b =
  quad3 (side_rule s q) (fun x y z => norm (area_vec (J x y z) s) * (side_hat D0 sp s a x y z * side_hat D0 sp s b x y z)).
Proof. exact trf_mass0_ok. Qed.
Print Assumptions C137_nodes.
Example C137_nodes_ex : bilinear (trf_mass D0 sp exq exJ2 tB) (repeat 1 6) (repeat 1 6) = 8.
Proof.
  rewrite trf_mass0_ok by exact ex_rules_ok.
  assert (N : norm (area_vec ((2, 0, 0), (0, 1, 0), (0, 0, 1)) tB) = 2).
  { unfold norm, area_vec, dot, csum, cross, col, ent, mrow. cbn. transitivity (sqrt (2 * 2)); [f_equal; ring|apply sqrt_square; lra]. }
  unfold quad3, side_rule, on_axis3, exq, exJ2. rewrite N. unfold rsum, side_hat. cbn. field.
Qed.
Theorem C137_faces : forall sp q J s a b (v w : R -> R -> R -> R), rules_ok q ->
  on_grid (side_mesh s (qmesh q)) (fun x y z => area_vec (J x y z) s <> zero_vec /\
    v x y z * norm (area_vec (J x y z) s) = side_hat D2 sp s a x y z /\ w x y z * norm (area_vec (J x y z) s) = side_hat D2 sp s b x y z) ->
  bilinear (trf_mass D2 sp q J s) a b = quad3 (side_rule s q) (fun x y z => norm (area_vec (J x y z) s) * (v x y z * w x y z)).
Proof. exact trf_mass2_ok. Qed.
Print Assumptions C137_faces.
Example C137_faces_ex : forall s a b, bilinear (trf_mass D2 sp exq tJ s) a b =
  quad3 (side_rule s exq) (fun x y z => norm (area_vec (tJ x y z) s) *
    (side_hat D2 sp s a x y z / norm (area_vec (tJ x y z) s) * (side_hat D2 sp s b x y z / norm (area_vec (tJ x y z) s)))).
Proof.
  intros s a b. apply trf_mass2_ok; [exact ex_rules_ok|]. intros x y z X Y Z. pose proof (ex_area_q s x y z X Y Z) as A. pose proof (norm_pos _ A).
  split; [exact A|]. split; field; lra.
Qed.
(* they are symmetric and positive definite *)
Theorem C137_symmetric : forall k sp q J s, symmetric (trf_mass k sp q J s) (nface k sp s).
Proof. exact trf_mass_sym. Qed.
Print Assumptions C137_symmetric.
Example C137_symmetric_ex : nface D0 sp tB = 6%nat /\ nface D2 sp tB = 2%nat /\ symmetric (trf_mass D2 sp exq tJ tB) 2.
Proof. split; [reflexivity|]. split; [reflexivity|]. apply (trf_mass_sym D2 sp exq tJ tB). Qed.
Theorem C137_positive : forall k sp q s, rules_ok q -> positive_weights q -> rules_separate q sp ->
  forall J, on_grid (side_mesh s (qmesh q)) (fun x y z => area_vec (J x y z) s <> zero_vec) ->
  positive_definite (trf_mass k sp q J s) (nface k sp s).
Proof. exact trf_mass_pos. Qed.
Print Assumptions C137_positive.
Example C137_positive_ex : forall k s, positive_definite (trf_mass k sp exq tJ s) (nface k sp s).
Proof. intros k s. apply trf_mass_pos; [exact ex_rules_ok|exact ex_weights|exact ex_separate|apply ex_area_q]. Qed.

(* discretizing a field with the values of a reconstructed trace gives its cochain *)
Theorem C137_round0 : forall g sp s, grid_ok g -> basis3_of g sp -> rules_exact g sp -> ends_ok g (pdeg (s0 sp)) (pdeg (s1 sp)) (pdeg (s2 sp)) ->
  forall F f c, length c = nface D0 sp s -> on_face s (fun x y z => through f F x y z = side_hat D0 sp s c x y z) ->
  trf_disc0 (gx g) (gy g) (gz g) F s f = c.
Proof. exact trf_disc_recon0. Qed.
Print Assumptions C137_round0.
Example C137_round0_ex : forall s, trf_disc0 (gx exg) (gy exg) (gz exg) exF s exf = restrict_to (degrees sp) nodes3 s exc0.
Proof.
  intros s. apply (trf_disc_recon0 exg sp s ex_grid ex_basis ex_rules ex_ends).
  - destruct s; reflexivity.
  - intros x y z _ _ _ H. rewrite ex_hat0. symmetry. apply (trace_hat exg sp ex_basis ex_ends D0 s exc0 eq_refl x y z H).
Qed.
Theorem C137_round0_normal : forall g sp s F J v c, grid_ok g -> basis3_of g sp -> rules_exact g sp -> ends_ok g (pdeg (s0 sp)) (pdeg (s1 sp)) (pdeg (s2 sp)) ->
  length c = nface D0 sp s -> on_face s (fun x y z => component (area_vec (J x y z) s) (through (value v) F x y z) = side_hat D0 sp s c x y z) ->
  trf_disc0v (gx g) (gy g) (gz g) F J s v = c.
Proof. exact trf_disc_recon0v. Qed.
Print Assumptions C137_round0_normal.
Example C137_round0_normal_ex : trf_disc0v (gx exg) (gy exg) (gz exg) exF2 exJ2 tS (fun _ x y z => y) = [-1; 1; -1; 1].
Proof.
  apply (trf_disc_recon0v exg sp tS exF2 exJ2); [exact ex_grid|exact ex_basis|exact ex_rules|exact ex_ends|reflexivity|].
  intros x y z _ _ _ _. unfold component, exJ2. assert (norm (area_vec ((2, 0, 0), (0, 1, 0), (0, 0, 1)) tS) = 1) as ->.
  - unfold norm, area_vec, dot, csum, cross, col, ent, mrow. cbn. transitivity (sqrt 1); [f_equal; ring|apply sqrt_1].
  - unfold side_hat, area_vec, dot, csum, cross, col, ent, mrow, through, value, exF2. cbn. field.
Qed.
Theorem C137_round2 : forall g sp s, grid_ok g -> basis3_of g sp -> rules_exact g sp -> ends_ok g (pdeg (s0 sp)) (pdeg (s1 sp)) (pdeg (s2 sp)) ->
  forall F J f c, length c = nface D2 sp s ->
  on_face s (fun x y z => through f F x y z * norm (area_vec (J x y z) s) = side_hat D2 sp s c x y z) ->
  trf_disc2 (gx g) (gy g) (gz g) (pdeg (s0 sp)) (pdeg (s1 sp)) (pdeg (s2 sp)) (rx g) (ry g) (rz g) F J s f = c.
Proof. exact trf_disc_recon2. Qed.
Print Assumptions C137_round2.
Example C137_round2_ex : trf_disc2 (gx exg) (gy exg) (gz exg) 2 1 1 (rx exg) (ry exg) (rz exg) exF2 exJ2 tS (fun _ _ _ => 7) = [28].
Proof.
  apply (trf_disc_recon2 exg sp tS ex_grid ex_basis ex_rules ex_ends exF2 exJ2); [reflexivity|].
  intros x y z _ _ _ _. unfold exJ2. assert (norm (area_vec ((2, 0, 0), (0, 1, 0), (0, 0, 1)) tS) = 1) as ->.
  - unfold norm, area_vec, dot, csum, cross, col, ent, mrow. cbn. transitivity (sqrt 1); [f_equal; ring|apply sqrt_1].
  - unfold side_hat, through. cbn. field.
Qed.
Theorem C137_round2_flux : forall g sp s, grid_ok g -> basis3_of g sp -> rules_exact g sp -> ends_ok g (pdeg (s0 sp)) (pdeg (s1 sp)) (pdeg (s2 sp)) ->
  forall F J v c, length c = nface D2 sp s -> on_face s (fun x y z => area_vec (J x y z) s <> zero_vec) ->
  on_face s (fun x y z => component (area_vec (J x y z) s) (through (value v) F x y z) * norm (area_vec (J x y z) s) = side_hat D2 sp s c x y z) ->
  trf_disc2v (gx g) (gy g) (gz g) (pdeg (s0 sp)) (pdeg (s1 sp)) (pdeg (s2 sp)) (rx g) (ry g) (rz g) F J s v = c.
Proof. exact trf_disc_recon2v. Qed.
Print Assumptions C137_round2_flux.
Example C137_round2_flux_ex : trf_disc2v (gx exg) (gy exg) (gz exg) 2 1 1 (rx exg) (ry exg) (rz exg) exF2 exJ2 tS (fun _ _ _ _ => 7) = [28].
Proof.
  assert (A : area_vec ((2, 0, 0), (0, 1, 0), (0, 0, 1)) tS = (1, 0, 0)).
  { unfold area_vec, cross, col, ent, mrow. cbn. f_equal; [f_equal|]; ring. }
  assert (N : norm (1, 0, 0) = 1) by (unfold norm, dot, csum; cbn; transitivity (sqrt 1); [f_equal; ring|apply sqrt_1]).
  apply (trf_disc_recon2v exg sp tS ex_grid ex_basis ex_rules ex_ends exF2 exJ2); [reflexivity| |].
  - intros x y z _ _ _ _. unfold exJ2. rewrite A. intros Z. injection Z as Z0. lra.
  - intros x y z _ _ _ _. unfold component, exJ2. rewrite A, N. unfold side_hat, through, value, dot, csum. cbn. field.
Qed.
