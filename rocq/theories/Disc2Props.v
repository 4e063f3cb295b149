(* C95: discretization on 2D elements; C96: coordinate transformation of 2D
   elements. *)
From Coq Require Import Reals List ZArith Lra.
From Verif Require Import CtModel CtSpec RingSum SpaceModel SpaceSpec SpaceProofs3 DiscModel DiscSpec DiscExample.
From Verif Require Import Disc2Model Disc2Spec Disc2Proofs Disc2Proofs2 Disc2Example.
Import ListNotations.
Open Scope R_scope.

(* the cochains are the integrals over the cells, in the order of the numbering *)
Theorem C95_nodes : forall g p0 p1, length (hx g) = S p0 -> length (hy g) = S p1 -> forall F f,
  disc2_0 (hx g) (hy g) F f = map (int2_0 g F f) (cells [p0; p1] nodes2).
Proof. exact disc2_0_ok. Qed.
Print Assumptions C95_nodes.
Example C95_nodes_ex : length exN0 = S 2 /\ length exN1 = S 1.
Proof. split; reflexivity. Qed.
Theorem C95_inner : forall g p0 p1, length (hx g) = S p0 -> length (hy g) = S p1 -> forall F J orth v,
  (orth = true -> forall x y, diagonal2 (J x y)) ->
  disc2_inner (hx g) (hy g) p0 p1 (sx g) (sy g) F J orth v = map (int2_inner g F J v) (cells [p0; p1] edges2_inner).
Proof. exact disc2_inner_ok. Qed.
Print Assumptions C95_inner.
Example C95_inner_ex : int2_inner (mkGrid2 exN0 exN1 two two) exF2 exJ2 exv2 [(true, 0%nat); (false, 1%nat)] = -4.
Proof. unfold int2_inner, quad2, along2, circ, rsum, dot2, mcol, comp, through2, value2, exF2, exJ2, exv2; cbn; field. Qed.
Theorem C95_outer : forall g p0 p1, length (hx g) = S p0 -> length (hy g) = S p1 -> forall F J orth v,
  (orth = true -> forall x y, diagonal2 (J x y)) ->
  disc2_outer (hx g) (hy g) p0 p1 (sx g) (sy g) F J orth v = map (int2_outer g F J v) (cells [p0; p1] edges2_outer).
Proof. exact disc2_outer_ok. Qed.
Print Assumptions C95_outer.
Example C95_outer_ex : int2_outer (mkGrid2 exN0 exN1 two two) exF2 exJ2 exu2 [(true, 0%nat); (false, 1%nat)] = 4.
Proof. unfold int2_outer, quad2, along2, orient_out, flux, rsum, cross2, mcol, comp, through2, value2, exF2, exJ2, exu2; cbn; field. Qed.
Theorem C95_faces : forall g p0 p1, length (hx g) = S p0 -> length (hy g) = S p1 -> forall F J f,
  disc2_2 (hx g) (hy g) p0 p1 (sx g) (sy g) F J f = map (int2_2 g F J f) (cells [p0; p1] faces2).
Proof. exact disc2_2_ok. Qed.
Print Assumptions C95_faces.
Example C95_faces_ex : int2_2 (mkGrid2 exN0 exN1 mid mid) exF2 exJ2 (fun x y => 1 + y) [(true, 0%nat); (true, 0%nat)] = 4.
Proof. unfold int2_2, quad2, rsum, cross2, mcol, comp, through2, exF2, exJ2; cbn; field. Qed.

(* gradient and rotated gradient *)
Theorem C95_gradient : forall n0 n1 r0 r1 p0 p1 F J orth f G E, length n0 = S p0 -> length n1 = S p1 -> jacobian2_of F J ->
  (orth = true -> forall x y, diagonal2 (J x y)) ->
  (forall x y, has_grad2 f x y (value2 G x y)) ->
  (forall b, integrates_along2 (mkGrid2 n0 n1 r0 r1) b (through2 f F)) -> EI10 [p0; p1] = Some E ->
  mat_times E (disc2_0 n0 n1 F f) (disc2_inner n0 n1 p0 p1 r0 r1 F J orth G).
Proof. exact disc2_grad. Qed.
Print Assumptions C95_gradient.
Example C95_gradient_ex : exists E, EI10 [2; 1]%nat = Some E /\
  mat_times E (disc2_0 exN0 exN1 exF2 exf2) (disc2_inner exN0 exN1 2 1 two two exF2 exJ2 false exG2).
Proof.
  destruct (EI10_acts RRing 2 1) as (E & HE & _). exists E. split; [exact HE|].
  apply disc2_grad with (1 := eq_refl) (2 := eq_refl) (3 := ex2_jacobian); [discriminate|exact ex2_grad|exact ex2_along_f|exact HE].
Qed.
Theorem C95_rotated_gradient : forall n0 n1 r0 r1 p0 p1 F J orth f G E, length n0 = S p0 -> length n1 = S p1 -> jacobian2_of F J ->
  (orth = true -> forall x y, diagonal2 (J x y)) ->
  (forall x y, has_grad2 f x y (- snd (value2 G x y), fst (value2 G x y))) ->
  (forall b, integrates_along2 (mkGrid2 n0 n1 r0 r1) b (through2 f F)) -> EO10 [p0; p1] = Some E ->
  mat_times E (disc2_0 n0 n1 F f) (disc2_outer n0 n1 p0 p1 r0 r1 F J orth G).
Proof. exact disc2_rot. Qed.
Print Assumptions C95_rotated_gradient.
Example C95_rotated_gradient_ex : exists E, EO10 [2; 1]%nat = Some E /\
  mat_times E (disc2_0 exN0 exN1 exF2 exf2) (disc2_outer exN0 exN1 2 1 two two exF2 exJ2 false exR2).
Proof.
  destruct (EO10_acts RRing 2 1) as (E & HE & _). exists E. split; [exact HE|].
  apply disc2_rot with (1 := eq_refl) (2 := eq_refl) (3 := ex2_jacobian); [discriminate|exact ex2_rot|exact ex2_along_f|exact HE].
Qed.
(* rotation of inner and divergence of outer 1-forms; 1-forms and 2-forms use
   rules of different degrees, which have to agree on the edges *)
Theorem C95_rotation : forall n0 n1 r0 r1 s0 s1 p0 p1 F J orth hxy v D E, length n0 = S p0 -> length n1 = S p1 -> jacobian2_of F J ->
  (orth = true -> forall x y, diagonal2 (J x y)) -> mixed J hxy -> deriv2_of v D ->
  (forall b, integrates_along2 (mkGrid2 n0 n1 s0 s1) (negb b) (circ F J v b)) ->
  (forall b, agree_along2 n0 n1 r0 r1 s0 s1 b (circ F J v b)) ->
  EI21 [p0; p1] = Some E ->
  mat_times E (disc2_inner n0 n1 p0 p1 r0 r1 F J orth v) (disc2_2 n0 n1 p0 p1 s0 s1 F J (rot2 D)).
Proof. exact disc2_curl. Qed.
Print Assumptions C95_rotation.
Example C95_rotation_ex : exists E, EI21 [2; 1]%nat = Some E /\
  mat_times E (disc2_inner exN0 exN1 2 1 two two exF2 exJ2 false exv2) (disc2_2 exN0 exN1 2 1 mid mid exF2 exJ2 (rot2 exDv2)).
Proof.
  destruct (EI21_acts RRing 2 1) as (E & HE & _). exists E. split; [exact HE|].
  apply disc2_curl with (1 := eq_refl) (2 := eq_refl) (3 := ex2_jacobian) (5 := ex2_mixed) (6 := ex2_deriv_v);
    [discriminate|apply ex2_circ|apply ex2_circ|exact HE].
Qed.
Theorem C95_divergence : forall n0 n1 r0 r1 s0 s1 p0 p1 F J orth hxy v D E, length n0 = S p0 -> length n1 = S p1 -> jacobian2_of F J ->
  (orth = true -> forall x y, diagonal2 (J x y)) -> mixed J hxy -> deriv2_of v D ->
  (forall b, integrates_along2 (mkGrid2 n0 n1 s0 s1) (negb b) (flux F J v b)) ->
  (forall b, agree_along2 n0 n1 r0 r1 s0 s1 b (flux F J v b)) ->
  EO21 [p0; p1] = Some E ->
  mat_times E (disc2_outer n0 n1 p0 p1 r0 r1 F J orth v) (disc2_2 n0 n1 p0 p1 s0 s1 F J (div2 D)).
Proof. exact disc2_div. Qed.
Print Assumptions C95_divergence.
Example C95_divergence_ex : exists E, EO21 [2; 1]%nat = Some E /\
  mat_times E (disc2_outer exN0 exN1 2 1 two two exF2 exJ2 false exu2) (disc2_2 exN0 exN1 2 1 mid mid exF2 exJ2 (div2 exDu2)).
Proof.
  destruct (EO21_acts RRing 2 1) as (E & HE & _). exists E. split; [exact HE|].
  apply disc2_div with (1 := eq_refl) (2 := eq_refl) (3 := ex2_jacobian) (5 := ex2_mixed) (6 := ex2_deriv_u);
    [discriminate|apply ex2_flux|apply ex2_flux|exact HE].
Qed.

(* the Jacobian matrix of an element holds the derivatives of its map *)
Theorem C96_jacobian : forall phi dphi e orth, jacobian2_of phi dphi -> (orth = true -> forall x y, diagonal2 (dphi x y)) ->
  jacobian2_of (ct2_mapping phi e) (ct2_Jacobian_matrix dphi e orth).
Proof. exact ct2_jacobian. Qed.
Print Assumptions C96_jacobian.
Example C96_jacobian_ex : jacobian2_of (ct2_mapping exF2 (mkElem2 0 (1/3) (1/2) (1/3))) (ct2_Jacobian_matrix exJ2 (mkElem2 0 (1/3) (1/2) (1/3)) false).
Proof. apply ct2_jacobian; [exact ex2_jacobian|discriminate]. Qed.
(* the inverse matrix is the inverse on both sides, with the inverse determinant *)
Theorem C96_inverse : forall m, ct2_Jacobian m <> 0 -> inverse2 m (ct2_inverse m) /\ inverse2 (ct2_inverse m) m.
Proof. exact ct2_inverse_ok. Qed.
Print Assumptions C96_inverse.
Example C96_inverse_ex : ct2_Jacobian ((1, 2), (3, 4)) <> 0.
Proof. unfold ct2_Jacobian. lra. Qed.
Theorem C96_inverse_determinant : forall m, ct2_Jacobian m <> 0 -> ct2_inverse_Jacobian (ct2_inverse m) * ct2_Jacobian m = 1.
Proof. exact ct2_inverse_det. Qed.
Print Assumptions C96_inverse_determinant.
Example C96_inverse_determinant_ex : ct2_inverse_Jacobian (ct2_inverse ((1, 2), (3, 4))) = - (1 / 2).
Proof. unfold ct2_inverse_Jacobian, ct2_inverse. field. Qed.
(* the metric matrix holds the products of the columns, its determinant is the
   metric, and the inverse metric matrix is its inverse *)
Theorem C96_metric_matrix : forall m (i j : bool),
  comp j (if i then snd (ct2_metric_matrix m) else fst (ct2_metric_matrix m)) = dot2 (mcol m i) (mcol m j).
Proof. exact ct2_gram. Qed.
Print Assumptions C96_metric_matrix.
Example C96_metric_matrix_ex : ct2_metric_matrix ((1, 2), (3, 4)) = ((10, 14), (14, 20)).
Proof. unfold ct2_metric_matrix. repeat f_equal; ring. Qed.
Theorem C96_metric : forall m, ct2_metric m = ct2_Jacobian (ct2_metric_matrix m).
Proof. exact ct2_metric_det. Qed.
Print Assumptions C96_metric.
Example C96_metric_ex : ct2_metric ((1, 2), (3, 4)) = 4.
Proof. unfold ct2_metric, ct2_Jacobian. ring. Qed.
Theorem C96_inverse_metric_matrix : forall m, ct2_Jacobian m <> 0 ->
  inverse2 (ct2_metric_matrix m) (ct2_inverse_metric_matrix (ct2_inverse m)) /\
  inverse2 (ct2_inverse_metric_matrix (ct2_inverse m)) (ct2_metric_matrix m).
Proof. exact ct2_inverse_gram. Qed.
Print Assumptions C96_inverse_metric_matrix.
Example C96_inverse_metric_matrix_ex : ct2_Jacobian ((2, 1), (0, 3)) <> 0.
Proof. unfold ct2_Jacobian. lra. Qed.
