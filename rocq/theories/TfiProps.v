(* C85: the maps of the regions and their Jacobian matrices.
   C86: what is checked about a region and computed from it. *)
From Coq Require Import Reals List Lra.
From Verif Require Import TfiModel TransModel TransSpec Edge2Model TfiSpec TfiProofs TfiProofs2 TfiProofs3 TfiProofs4
  Edge2Proofs TfiExample.
Import ListNotations.
Open Scope R_scope.

(* the map has the six sides as its faces exactly when the sides fit together along the edges *)
Theorem C85_faces : forall g, restricts g (tf_map g) <-> agree g.
Proof. exact tf_restricts_iff. Qed.
Print Assumptions C85_faces.
Example C85_faces_ex : agree curved /\ tf_map curved cX (1 / 2) 0 (1 / 2) = 3 / 4.
Proof. exact curved_ok. Qed.

(* the nine entries are the partial derivatives of the map *)
Theorem C85_jacobian : forall g, side_derivs g -> jacobian_of (tf_map g) (tf_Jacobian_matrix g).
Proof. exact tf_jacobian. Qed.
Print Assumptions C85_jacobian.
Example C85_jacobian_ex : side_derivs curved /\ tf_Jr curved cX (1 / 2) 0 (1 / 4) = 1 /\
  tf_Jt curved cX (1 / 2) 0 (1 / 4) = 1 / 2.
Proof. exact curved_derivs. Qed.

Theorem C85_determinant : forall m, interp_Jacobian m = det3 m.
Proof. exact interp_Jacobian_det. Qed.
Print Assumptions C85_determinant.
Example C85_determinant_ex : interp_Jacobian ((1, 2, 3), (4, 5, 6), (7, 8, 10)) = -3.
Proof. cbn [interp_Jacobian]. ring. Qed.

(* a region given by its eight corners: the sides fit, their derivatives are right, the map is the
   trilinear interpolation of the corners *)
Theorem C85_plane_sides : forall k, agree (plane_sides k) /\ side_derivs (plane_sides k) /\
  forall c r s t, tf_map (plane_sides k) c r s t = trilinear k c r s t.
Proof. intro k. exact (conj (plane_agree k) (conj (plane_derivs k) (plane_trilinear k))). Qed.
Print Assumptions C85_plane_sides.
Example C85_plane_sides_ex : tf_map (plane_sides wedge) cY (1 / 2) (1 / 2) (1 / 3) = 3 / 4.
Proof. rewrite (proj1 (proj2 (wedge_map (1 / 2) (1 / 2) (1 / 3)))). field. Qed.

(* the orthogonal interpolation is the transfinite one of a box, with the same Jacobian matrix *)
Theorem C85_box : forall lo hi,
  (forall c r s t, orth_map (orth_bounds (box lo hi)) c r s t = tf_map (plane_sides (box lo hi)) c r s t) /\
  (forall r s t, tf_Jacobian_matrix (plane_sides (box lo hi)) r s t =
                 orth_Jacobian_matrix (orth_bounds (box lo hi)) r s t) /\
  jacobian_of (orth_map (orth_bounds (box lo hi))) (orth_Jacobian_matrix (orth_bounds (box lo hi))).
Proof. intros lo hi. exact (conj (orth_is_transfinite lo hi) (conj (box_jacobian lo hi) (orth_jacobian _))). Qed.
Print Assumptions C85_box.
Example C85_box_ex : orth_map (orth_bounds (box (1, 2, 3) (3, 5, 9))) cZ 0 0 (1 / 2) = 6.
Proof. cbn. field. Qed.

(* the crazy map: derivatives, and the box is kept on the whole boundary of the cube *)
Theorem C85_crazy : forall cc bd,
  jacobian_of (crazy_map cc bd) (crazy_Jacobian_matrix cc bd) /\
  (forall c r s t, r = 0 \/ r = 1 \/ s = 0 \/ s = 1 \/ t = 0 \/ t = 1 ->
     crazy_map cc bd c r s t = orth_map bd c r s t).
Proof. intros cc bd. exact (conj (crazy_jacobian cc bd) (crazy_boundary cc bd)). Qed.
Print Assumptions C85_crazy.

(* its determinant is positive on the whole cube exactly for 2 pi |c| < sqrt 3 *)
Theorem C85_crazy_positive : forall cc a b c d e f, a < b -> c < d -> e < f ->
  ((forall r s t, incube r s t -> 0 < det3 (crazy_Jacobian_matrix cc ((a, b), (c, d), (e, f)) r s t)) <->
   4 * PI ^ 2 * cc ^ 2 < 3).
Proof. exact crazy_positive_spec. Qed.
Print Assumptions C85_crazy_positive.

(* and then it is a bijection of the cube onto the box *)
Theorem C85_crazy_bijection : forall cc a b c d e f, a < b -> c < d -> e < f ->
  4 * PI ^ 2 * cc ^ 2 < 3 ->
  one_to_one (crazy_map cc ((a, b), (c, d), (e, f))) /\
  has_image (crazy_map cc ((a, b), (c, d), (e, f)))
    (fun x y z => a <= x <= b /\ c <= y <= d /\ e <= z <= f).
Proof. exact crazy_bijection_spec. Qed.
Print Assumptions C85_crazy_bijection.
Example C85_crazy_ex : 4 * PI ^ 2 * (1 / 10) ^ 2 < 3 /\
  crazy_map (1 / 10) ((0, 1), (0, 1), (0, 1)) cX (1 / 4) (1 / 4) (1 / 4) = 3 / 10.
Proof. exact crazy_case. Qed.

(* in the plane *)
Theorem C85_crazy_plane : forall cc a b c d, a < b -> c < d ->
  jacobian2_of (crazy2_map cc ((a, b), (c, d))) (crazy2_Jacobian_matrix cc ((a, b), (c, d))) /\
  ((forall r s, insquare r s -> 0 < det2 (crazy2_Jacobian_matrix cc ((a, b), (c, d)) r s)) <-> Rabs cc * PI < 1) /\
  (Rabs cc * PI < 1 ->
     one_to_one2 (crazy2_map cc ((a, b), (c, d))) /\
     has_image2 (crazy2_map cc ((a, b), (c, d))) (fun x y => a <= x <= b /\ c <= y <= d)) /\
  (1 < Rabs cc * PI -> ~ one_to_one2 (crazy2_map cc ((a, b), (c, d)))).
Proof. exact crazy2_spec. Qed.
Print Assumptions C85_crazy_plane.
Theorem C85_crazy_plane_boundary : forall cc a b c d r s, r = 0 \/ r = 1 \/ s = 0 \/ s = 1 ->
  crazy2_map cc ((a, b), (c, d)) false r s = a + (b - a) * r /\
  crazy2_map cc ((a, b), (c, d)) true r s = c + (d - c) * s.
Proof. exact crazy2_boundary_spec. Qed.
Print Assumptions C85_crazy_plane_boundary.
Example C85_crazy_plane_ex : Rabs (3 / 10) * PI < 1 /\
  crazy2_map (3 / 10) ((0, 1), (0, 1)) false (1 / 4) (1 / 4) = 4 / 10.
Proof. exact crazy2_case. Qed.

(* an edge of a plane region joins its two corners; its derivative is right *)
Theorem C85_edges : forall e a b,
  (well_placed e a b -> starts_at (edge_curve e a b) a /\ ends_at (edge_curve e a b) b) /\
  derivative_of (edge_curve e a b) (edge_curve_o e a b).
Proof. intros e a b. exact (conj (edge_ends e a b) (edge_derivative e a b)). Qed.
Print Assumptions C85_edges.

(* an arc stays on its circle and turns the way its name says, less than once round *)
Theorem C85_arcs : forall c a b, dist2 c (fst a) (snd a) = dist2 c (fst b) (snd b) ->
  0 < dist2 c (fst a) (snd a) -> a <> b ->
  (forall e o, e = eACW c \/ e = eAACW c ->
     dist2 c (cx (edge_curve e a b) o) (cy (edge_curve e a b) o) = dist2 c (fst a) (snd a)) /\
  (exists w, 0 < w < 2 * PI /\ forall o,
     spin c (edge_curve (eACW c) a b) (edge_curve_o (eACW c) a b) o = - (dist2 c (fst a) (snd a) * w)) /\
  (exists w, 0 < w < 2 * PI /\ forall o,
     spin c (edge_curve (eAACW c) a b) (edge_curve_o (eAACW c) a b) o = dist2 c (fst a) (snd a) * w).
Proof. exact arcs_spec. Qed.
Print Assumptions C85_arcs.
Example C85_arcs_ex : dist2 (0, 0) 1 0 = dist2 (0, 0) 0 1 /\ 0 < dist2 (0, 0) 1 0 /\
  aacw_end (0, 0) (1, 0) (0, 1) = PI / 2 /\ acw_end (0, 0) (1, 0) (0, 1) = PI / 2 - 2 * PI.
Proof. exact quarter. Qed.

(* so the four edges of a plane region meet and the theorems of C44 apply to its transfinite map *)
Theorem C85_plane_region : forall g, region_well_placed g ->
  meet (region2_transfinite g) /\ derivatives (region2_transfinite g).
Proof. intros g W. exact (conj (region2_meet g W) (region2_derivatives g)). Qed.
Print Assumptions C85_plane_region.
Example C85_plane_region_ex : region_well_placed quarter_region.
Proof. exact quarter_region_ok. Qed.

(* ---- C86 ---- *)
(* a check at the samples of the user's code passes although the map misses the north side *)
Theorem C86_consistency_check_refuted : exists g, side_derivs g /\
  (forall n, (2 <= n <= 4)%nat -> check_line_consistency n g) /\ ~ restricts g (tf_map g).
Proof. exact bulged_refutes. Qed.
Print Assumptions C86_consistency_check_refuted.
(* what the check does give: with sides that agree it always passes *)
Theorem C86_consistency_check_passes : forall g n, agree g -> (2 <= n)%nat -> check_line_consistency n g.
Proof. exact check_passes. Qed.
Print Assumptions C86_consistency_check_passes.
Example C86_consistency_ex : agree curved /\ linspace01 3 = [0 / 2; 1 / 2; 2 / 2].
Proof. exact linspace_case. Qed.

(* too large a parameter folds the crazy mesh; 0.3 is too large *)
Theorem C86_crazy_folds : forall cc bd, 3 < 4 * PI ^ 2 * cc ^ 2 -> ~ one_to_one (crazy_map cc bd).
Proof. exact crazy_folds. Qed.
Print Assumptions C86_crazy_folds.
Theorem C86_crazy_valid_refuted :
  ~ (forall cc bd, 0 <= cc <= 3 / 10 -> one_to_one (crazy_map cc bd)).
Proof. exact crazy_valid_false. Qed.
Print Assumptions C86_crazy_valid_refuted.
Example C86_crazy_folds_ex : 3 < 4 * PI ^ 2 * (3 / 10) ^ 2.
Proof. exact three_tenths. Qed.

(* the volume of a box *)
Theorem C86_volume_box : forall quad a b c d e f, exact_linear quad ->
  region_volume quad (orth_Jacobian_matrix ((a, b), (c, d), (e, f))) = (b - a) * (d - c) * (f - e).
Proof. exact orth_volume_spec. Qed.
Print Assumptions C86_volume_box.
Example C86_volume_box_ex : exact_linear (gauss2 (/ sqrt 3)).
Proof. exact (gauss2_exact _). Qed.

(* the volume of a wedge between x = 0 and x = 1 with y up to 1 + x is 3/2, computed is 1 *)
Theorem C86_volume_refuted : exists k,
  (forall r s t, tf_map (plane_sides k) cX r s t = r /\
     tf_map (plane_sides k) cY r s t = s * (1 + r) /\ tf_map (plane_sides k) cZ r s t = t) /\
  (forall r s t, det3 (tf_Jacobian_matrix (plane_sides k) r s t) = 1 + r) /\
  (exists pr : Riemann_integrable (fun r => 1 + r) 0 1, RiemannInt pr = 3 / 2) /\
  (forall quad, exact_linear quad -> region_volume quad (tf_Jacobian_matrix (plane_sides k)) = 1).
Proof. exact volume_false. Qed.
Print Assumptions C86_volume_refuted.
