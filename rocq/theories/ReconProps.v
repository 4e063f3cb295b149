(* C97-C101: reconstruction, mass and wedge matrices on 3D elements. *)
From Coq Require Import Reals List ZArith.
From Verif Require Import TfiModel TfiSpec CtModel CtSpec RingSum SpaceModel SpaceSpec DiscModel DiscSpec DiscExample ReconModel ReconSpec.
From Verif Require Import DiscProofs2 DiscProofs3 ReconProofs ReconProofs2 ReconProofs3 ReconProofs4 ReconProofs5 ReconExample.
Import ListNotations.
Open Scope R_scope.

(* reconstructed 0-forms have the values of the sum of the nodal functions *)
Theorem C97_nodes : forall s m c,
  array_of m (recon0 s m c) (fun x y z v => v = hat0 s c x y z).
Proof. exact recon0_ok. Qed.
Print Assumptions C97_nodes.
Example C97_nodes_ex : at_index (mkMesh3 [0] [1 / 2] [1; -1]) (recon0 sp (mkMesh3 [0] [1 / 2] [1; -1]) exc0) 0%nat 0%nat 1%nat = Some 0.
Proof.
  destruct (recon0_ok sp (mkMesh3 [0] [1 / 2] [1; -1]) exc0 0%nat 0%nat 1%nat) as (v & -> & ->). f_equal. rewrite <- ex_hat0. unfold through, exf, exF. ring.
Qed.

(* ... 1-forms: the vector whose pull back is the sum of the basis functions of the edges *)
Theorem C97_edges : forall s m J orth c, length c = length (cells (degrees s) edges3) ->
  on_grid m (fun x y z => det3 (J x y z) <> 0) -> (orth = true -> on_grid m (fun x y z => diagonal (J x y z))) ->
  array_of m (recon1 s m J orth c) (fun x y z v => pulls1 (J x y z) v (fun d => hat1 s c d x y z)).
Proof. exact recon1_ok. Qed.
Print Assumptions C97_edges.
Example C97_edges_ex : array_of (qmesh exq) (recon1 sp (qmesh exq) exJ false exc1) (fun x y z v => pulls1 (exJ x y z) v (fun d => hat1 sp exc1 d x y z)).
Proof. apply recon1_ok; [reflexivity|exact ex_nonzero|discriminate]. Qed.

(* ... 2-forms *)
Theorem C97_faces : forall s m J orth c, length c = length (cells (degrees s) faces3) ->
  on_grid m (fun x y z => det3 (J x y z) <> 0) -> (orth = true -> on_grid m (fun x y z => diagonal (J x y z))) ->
  array_of m (recon2 s m J orth c) (fun x y z v => pulls2 (J x y z) v (fun d => hat2 s c d x y z)).
Proof. exact recon2_ok. Qed.
Print Assumptions C97_faces.
Example C97_faces_ex : array_of (qmesh exq) (recon2 sp (qmesh exq) exJ false exc2) (fun x y z v => pulls2 (exJ x y z) v (fun d => hat2 sp exc2 d x y z)).
Proof. apply recon2_ok; [reflexivity|exact ex_nonzero|discriminate]. Qed.

(* ... 3-forms *)
Theorem C97_volumes : forall s m J c, on_grid m (fun x y z => det3 (J x y z) <> 0) ->
  array_of m (recon3 s m J c) (fun x y z v => pulls3 (J x y z) v (hat3 s c x y z)).
Proof. exact recon3_ok. Qed.
Print Assumptions C97_volumes.
Example C97_volumes_ex : array_of (qmesh exq) (recon3 sp (qmesh exq) exJ [1; 2]) (fun x y z v => pulls3 (exJ x y z) v (hat3 sp [1; 2] x y z)).
Proof. apply recon3_ok. exact ex_nonzero. Qed.

(* the reconstruction matrices times the cochain are the reconstructed values *)
Theorem C97_matrix0 : forall s m c, times (rm_0 s m) c = recon0 s m c.
Proof. exact rm_0_ok. Qed.
Print Assumptions C97_matrix0.
Example C97_matrix0_ex : times (rm_0 sp (qmesh exq)) exc0 = recon0 sp (qmesh exq) exc0.
Proof. apply rm_0_ok. Qed.

(* ... 1-forms *)
Theorem C97_matrix1 : forall s m J orth c, length c = length (cells (degrees s) edges3) ->
  on_grid m (fun x y z => det3 (J x y z) <> 0) -> (orth = true -> on_grid m (fun x y z => diagonal (J x y z))) ->
  match rm_1 s m J orth with (a, b, d) => components (recon1 s m J orth c) (times a c) (times b c) (times d c) end.
Proof. exact rm_1_ok. Qed.
Print Assumptions C97_matrix1.
Example C97_matrix1_ex : match rm_1 sp (qmesh exq) exJ false with
  (a, b, d) => components (recon1 sp (qmesh exq) exJ false exc1) (times a exc1) (times b exc1) (times d exc1) end.
Proof. apply (rm_1_ok sp (qmesh exq) exJ false exc1); [reflexivity|exact ex_nonzero|discriminate]. Qed.

(* ... 2-forms *)
Theorem C97_matrix2 : forall s m J orth c, length c = length (cells (degrees s) faces3) ->
  on_grid m (fun x y z => det3 (J x y z) <> 0) -> (orth = true -> on_grid m (fun x y z => diagonal (J x y z))) ->
  match rm_2 s m J orth with (a, b, d) => components (recon2 s m J orth c) (times a c) (times b c) (times d c) end.
Proof. exact rm_2_ok. Qed.
Print Assumptions C97_matrix2.
Example C97_matrix2_ex : match rm_2 sp (qmesh exq) exJ false with
  (a, b, d) => components (recon2 sp (qmesh exq) exJ false exc2) (times a exc2) (times b exc2) (times d exc2) end.
Proof. apply (rm_2_ok sp (qmesh exq) exJ false exc2); [reflexivity|exact ex_nonzero|discriminate]. Qed.

(* ... 3-forms *)
Theorem C97_matrix3 : forall s m J c, times (rm_3 s m J) c = recon3 s m J c.
Proof. exact rm_3_ok. Qed.
Print Assumptions C97_matrix3.
Example C97_matrix3_ex : times (rm_3 sp (qmesh exq) exJ) [1; 2] = recon3 sp (qmesh exq) exJ [1; 2].
Proof. apply rm_3_ok. Qed.

(* discretizing the function that a 0-form reconstructs gives back its
   cochain *)
Theorem C98_nodes : forall g s, grid_ok g -> basis3_of g s -> rules_exact g s -> forall F f c,
  length c = length (cells (degrees s) nodes3) ->
  in_element (fun x y z => through f F x y z = hat0 s c x y z) -> disc0 (gx g) (gy g) (gz g) F f = c.
Proof. exact disc_recon0. Qed.
Print Assumptions C98_nodes.
Example C98_nodes_ex : disc0 [-1; 0; 1] [-1; 1] [-1; 1] exF exf = exc0.
Proof.
  apply (disc_recon0 exg sp ex_grid ex_basis ex_rules); [reflexivity|]. intros x y z _ _ _. apply ex_hat0.
Qed.

(* ... 1-forms *)
Theorem C98_edges : forall g s, grid_ok g -> basis3_of g s -> rules_exact g s -> forall F J orth v c,
  length c = length (cells (degrees s) edges3) -> (orth = true -> forall x y z, diagonal (J x y z)) ->
  in_element (fun x y z => pulls1 (J x y z) (through (value v) F x y z) (fun d => hat1 s c d x y z)) ->
  disc1 (gx g) (gy g) (gz g) (pdeg (s0 s)) (pdeg (s1 s)) (pdeg (s2 s)) (rx g) (ry g) (rz g) F J orth v = c.
Proof. exact disc_recon1. Qed.
Print Assumptions C98_edges.
Example C98_edges_ex : disc1 [-1; 0; 1] [-1; 1] [-1; 1] 2 1 1 mid mid mid exF exJ false exv = exc1.
Proof.
  apply (disc_recon1 exg sp ex_grid ex_basis ex_rules); [reflexivity|discriminate|]. intros x y z _ _ _. apply ex_hat1.
Qed.

(* ... 2-forms *)
Theorem C98_faces : forall g s, grid_ok g -> basis3_of g s -> rules_exact g s -> forall F J orth v c,
  length c = length (cells (degrees s) faces3) -> (orth = true -> forall x y z, diagonal (J x y z)) ->
  in_element (fun x y z => pulls2 (J x y z) (through (value v) F x y z) (fun d => hat2 s c d x y z)) ->
  disc2 (gx g) (gy g) (gz g) (pdeg (s0 s)) (pdeg (s1 s)) (pdeg (s2 s)) (rx g) (ry g) (rz g) F J orth v = c.
Proof. exact disc_recon2. Qed.
Print Assumptions C98_faces.
Example C98_faces_ex : disc2 [-1; 0; 1] [-1; 1] [-1; 1] 2 1 1 mid mid mid exF exJ false exw = exc2.
Proof.
  apply (disc_recon2 exg sp ex_grid ex_basis ex_rules); [reflexivity|discriminate|]. intros x y z _ _ _. apply ex_hat2.
Qed.

(* ... 3-forms *)
Theorem C98_volumes : forall g s, grid_ok g -> basis3_of g s -> rules_exact g s -> forall F J f c,
  length c = length (cells (degrees s) volumes3) ->
  in_element (fun x y z => pulls3 (J x y z) (through f F x y z) (hat3 s c x y z)) ->
  disc3 (gx g) (gy g) (gz g) (pdeg (s0 s)) (pdeg (s1 s)) (pdeg (s2 s)) (rx g) (ry g) (rz g) F J f = c.
Proof. exact disc_recon3. Qed.
Print Assumptions C98_volumes.
Example C98_volumes_ex : disc3 [-1; 0; 1] [-1; 1] [-1; 1] 2 1 1 mid mid mid exF2 exJ2 (div_field exD2) = exc3.
Proof.
  apply (disc_recon3 exg sp ex_grid ex_basis ex_rules); [reflexivity|]. intros x y z _ _ _. apply ex_hat3.
Qed.

(* the mass matrix of 0-forms gives the integral of the product of the
   functions, by the quadrature rules *)
Theorem C99_nodes : forall so s q J, rules_ok q -> forall co cs,
  bilinear (inner0 so s q J) co cs = quad3 q (fun x y z => det3 (J x y z) * (hat0 so co x y z * hat0 s cs x y z)).
Proof. exact inner0_ok. Qed.
Print Assumptions C99_nodes.
Example C99_nodes_ex : bilinear (inner0 sp sp exq exJ) exc0 exc0 = quad3 exq (fun x y z => (1 + y) * ((x + x * y) * z * ((x + x * y) * z))).
Proof.
  rewrite (inner0_ok sp sp exq exJ ex_rules_ok). unfold quad3. do 3 (apply rsum_ext; intros ? _). rewrite <- ex_hat0. unfold det3, through, exJ, exf, exF. ring.
Qed.

(* ... 1-forms: of the inner product of the vectors; same: the two spaces are one
   object *)
Theorem C99_edges : forall so s q J same orth, rules_ok q ->
  on_grid (qmesh q) (fun x y z => det3 (J x y z) <> 0) -> (orth = true -> on_grid (qmesh q) (fun x y z => diagonal (J x y z))) ->
  (same = true -> so = s) -> forall co cs vo vs,
  on_grid (qmesh q) (fun x y z => pulls1 (J x y z) (vo x y z) (fun d => hat1 so co d x y z)) ->
  on_grid (qmesh q) (fun x y z => pulls1 (J x y z) (vs x y z) (fun d => hat1 s cs d x y z)) ->
  bilinear (inner1 same orth so s q J) co cs = quad3 q (fun x y z => det3 (J x y z) * dot (vo x y z) (vs x y z)).
Proof. exact inner1_ok. Qed.
Print Assumptions C99_edges.
Example C99_edges_ex : bilinear (inner1 true false sp sp exq exJ) exc1 exc1 =
  quad3 exq (fun x y z => det3 (exJ x y z) * dot (through (value exv) exF x y z) (through (value exv) exF x y z)).
Proof.
  apply (inner1_ok sp sp exq exJ true false ex_rules_ok ex_nonzero); [discriminate|reflexivity| |]; intros x y z _ _ _; apply ex_hat1.
Qed.

(* ... 2-forms *)
Theorem C99_faces : forall so s q J same orth, rules_ok q ->
  on_grid (qmesh q) (fun x y z => det3 (J x y z) <> 0) -> (orth = true -> on_grid (qmesh q) (fun x y z => diagonal (J x y z))) ->
  (same = true -> so = s) -> forall co cs vo vs,
  on_grid (qmesh q) (fun x y z => pulls2 (J x y z) (vo x y z) (fun d => hat2 so co d x y z)) ->
  on_grid (qmesh q) (fun x y z => pulls2 (J x y z) (vs x y z) (fun d => hat2 s cs d x y z)) ->
  bilinear (inner2 same orth so s q J) co cs = quad3 q (fun x y z => det3 (J x y z) * dot (vo x y z) (vs x y z)).
Proof. exact inner2_ok. Qed.
Print Assumptions C99_faces.
Example C99_faces_ex : bilinear (inner2 true false sp sp exq exJ) exc2 exc2 =
  quad3 exq (fun x y z => det3 (exJ x y z) * dot (through (value exw) exF x y z) (through (value exw) exF x y z)).
Proof.
  apply (inner2_ok sp sp exq exJ true false ex_rules_ok ex_nonzero); [discriminate|reflexivity| |]; intros x y z _ _ _; apply ex_hat2.
Qed.

(* ... 3-forms *)
Theorem C99_volumes : forall so s q J, rules_ok q -> on_grid (qmesh q) (fun x y z => det3 (J x y z) <> 0) -> forall co cs vo vs,
  on_grid (qmesh q) (fun x y z => pulls3 (J x y z) (vo x y z) (hat3 so co x y z)) ->
  on_grid (qmesh q) (fun x y z => pulls3 (J x y z) (vs x y z) (hat3 s cs x y z)) ->
  bilinear (inner3 so s q J) co cs = quad3 q (fun x y z => det3 (J x y z) * (vo x y z * vs x y z)).
Proof. exact inner3_ok. Qed.
Print Assumptions C99_volumes.
Example C99_volumes_ex : bilinear (inner3 sp sp exq exJ2) exc3 exc3 = quad3 exq (fun x y z => det3 (exJ2 x y z) * (through (div_field exD2) exF2 x y z * through (div_field exD2) exF2 x y z)).
Proof.
  apply inner3_ok; [exact ex_rules_ok| | |]; intros x y z _ _ _; [|apply ex_hat3|apply ex_hat3]. unfold det3, exJ2. intros H. ring_simplify in H. apply (IZR_neq 2 0); [discriminate|exact H].
Qed.

(* the mass matrices are symmetric *)
Theorem C99_symmetric_nodes : forall s q J, symmetric (inner0 s s q J) (length (cells (degrees s) nodes3)).
Proof. exact inner0_sym. Qed.
Print Assumptions C99_symmetric_nodes.
Example C99_symmetric_nodes_ex : symmetric (inner0 sp sp exq exJ) (length (cells [2; 1; 1]%nat nodes3)).
Proof. apply inner0_sym. Qed.

(* ... 1-forms *)
Theorem C99_symmetric_edges : forall same orth s q J, symmetric (inner1 same orth s s q J) (length (cells (degrees s) edges3)).
Proof. exact inner1_sym. Qed.
Print Assumptions C99_symmetric_edges.
Example C99_symmetric_edges_ex : symmetric (inner1 false false sp sp exq exJ) (length (cells [2; 1; 1]%nat edges3)).
Proof. apply inner1_sym. Qed.

(* ... 2-forms *)
Theorem C99_symmetric_faces : forall same orth s q J, symmetric (inner2 same orth s s q J) (length (cells (degrees s) faces3)).
Proof. exact inner2_sym. Qed.
Print Assumptions C99_symmetric_faces.
Example C99_symmetric_faces_ex : symmetric (inner2 false false sp sp exq exJ) (length (cells [2; 1; 1]%nat faces3)).
Proof. apply inner2_sym. Qed.

(* ... 3-forms *)
Theorem C99_symmetric_volumes : forall s q J, symmetric (inner3 s s q J) (length (cells (degrees s) volumes3)).
Proof. exact inner3_sym. Qed.
Print Assumptions C99_symmetric_volumes.
Example C99_symmetric_volumes_ex : symmetric (inner3 sp sp exq exJ) (length (cells [2; 1; 1]%nat volumes3)).
Proof. apply inner3_sym. Qed.

(* ... and positive definite, if the weights and the determinant are positive and
   only the zero cochain vanishes at all points of the rules *)
Theorem C99_definite_nodes : forall q, rules_ok q -> positive_weights q -> forall s, rules_separate q s -> forall J,
  on_grid (qmesh q) (fun x y z => 0 < det3 (J x y z)) ->
  positive_definite (inner0 s s q J) (length (cells (degrees s) nodes3)).
Proof. exact inner0_pos. Qed.
Print Assumptions C99_definite_nodes.
Example C99_definite_nodes_ex : positive_definite (inner0 sp sp exq exJ) (length (cells [2; 1; 1]%nat nodes3)).
Proof. exact (inner0_pos exq ex_rules_ok ex_weights sp ex_separate exJ ex_det). Qed.

(* ... 1-forms *)
Theorem C99_definite_edges : forall q, rules_ok q -> positive_weights q -> forall s, rules_separate q s -> forall J same orth,
  on_grid (qmesh q) (fun x y z => 0 < det3 (J x y z)) -> (orth = true -> on_grid (qmesh q) (fun x y z => diagonal (J x y z))) ->
  positive_definite (inner1 same orth s s q J) (length (cells (degrees s) edges3)).
Proof. exact inner1_pos. Qed.
Print Assumptions C99_definite_edges.
Example C99_definite_edges_ex : positive_definite (inner1 false false sp sp exq exJ) (length (cells [2; 1; 1]%nat edges3)).
Proof. apply (inner1_pos exq ex_rules_ok ex_weights sp ex_separate exJ false false ex_det). discriminate. Qed.

(* ... 2-forms *)
Theorem C99_definite_faces : forall q, rules_ok q -> positive_weights q -> forall s, rules_separate q s -> forall J same orth,
  on_grid (qmesh q) (fun x y z => 0 < det3 (J x y z)) -> (orth = true -> on_grid (qmesh q) (fun x y z => diagonal (J x y z))) ->
  positive_definite (inner2 same orth s s q J) (length (cells (degrees s) faces3)).
Proof. exact inner2_pos. Qed.
Print Assumptions C99_definite_faces.
Example C99_definite_faces_ex : positive_definite (inner2 false false sp sp exq exJ) (length (cells [2; 1; 1]%nat faces3)).
Proof. apply (inner2_pos exq ex_rules_ok ex_weights sp ex_separate exJ false false ex_det). discriminate. Qed.

(* ... 3-forms *)
Theorem C99_definite_volumes : forall q, rules_ok q -> positive_weights q -> forall s, rules_separate q s -> forall J,
  on_grid (qmesh q) (fun x y z => 0 < det3 (J x y z)) ->
  positive_definite (inner3 s s q J) (length (cells (degrees s) volumes3)).
Proof. exact inner3_pos. Qed.
Print Assumptions C99_definite_volumes.
Example C99_definite_volumes_ex : positive_definite (inner3 sp sp exq exJ) (length (cells [2; 1; 1]%nat volumes3)).
Proof. exact (inner3_pos exq ex_rules_ok ex_weights sp ex_separate exJ ex_det). Qed.

(* the wedge matrix of a 2-form and a 1-form does not depend on the metric: it
   gives the integral over the reference element *)
Theorem C100_reference : forall so s q, rules_ok q -> forall co cs,
  bilinear (wedge12 so s q) co cs = quad3 q (fun x y z => csum (fun d => hat2 so co d x y z * hat1 s cs d x y z)).
Proof. exact wedge_hat. Qed.
Print Assumptions C100_reference.
Example C100_reference_ex : bilinear (wedge12 sp sp exq) exc2 exc1 = quad3 exq (fun x y z => csum (fun d => hat2 sp exc2 d x y z * hat1 sp exc1 d x y z)).
Proof. exact (wedge_hat sp sp exq ex_rules_ok exc2 exc1). Qed.

(* ... which is the integral of the inner product of the vectors over the element,
   for every map *)
Theorem C100_element : forall so s q J, rules_ok q -> forall co cs v2 v1,
  on_grid (qmesh q) (fun x y z => pulls2 (J x y z) (v2 x y z) (fun d => hat2 so co d x y z)) ->
  on_grid (qmesh q) (fun x y z => pulls1 (J x y z) (v1 x y z) (fun d => hat1 s cs d x y z)) ->
  bilinear (wedge12 so s q) co cs = quad3 q (fun x y z => det3 (J x y z) * dot (v2 x y z) (v1 x y z)).
Proof. exact wedge_ok. Qed.
Print Assumptions C100_element.
Example C100_element_ex : bilinear (wedge12 sp sp exq) exc2 exc1 =
  quad3 exq (fun x y z => det3 (exJ x y z) * dot (through (value exw) exF x y z) (through (value exv) exF x y z)).
Proof.
  apply (wedge_ok sp sp exq exJ ex_rules_ok); intros x y z _ _ _; [apply ex_hat2|apply ex_hat1].
Qed.

(* the gradient of a reconstructed 0-form is the reconstructed 1-form of E10
   times the cochain, inside the element *)
Theorem C101_gradient : forall g s, basis3_of g s -> forall F J, jacobian_of F J -> forall f G E c u,
  E10 (degrees s) = Some E -> length c = length (cells (degrees s) nodes3) -> length u = length (cells (degrees s) edges3) ->
  mat_times E c u -> grad_inside F f G -> inside_element (fun x y z => through f F x y z = hat0 s c x y z) ->
  inside_element (fun x y z => pulls1 (J x y z) (through (value G) F x y z) (fun d => hat1 s u d x y z)).
Proof. exact recon_grad. Qed.
Print Assumptions C101_gradient.
Example C101_gradient_ex : inside_element (fun x y z => pulls1 (exJ x y z) (through (value exG) exF x y z) (fun d => hat1 sp exg1 d x y z)).
Proof.
  destruct ex_E10 as (E & HE & M). apply (recon_grad exg sp ex_basis exF exJ ex_jacobian exf exG E exc0 exg1 HE eq_refl eq_refl M).
  - intros x y z _ _ _. apply ex_grad.
  - intros x y z _ _ _. apply ex_hat0.
Qed.

(* ... the curl of a 1-form *)
Theorem C101_curl : forall g s, basis3_of g s -> forall F J H, jacobian_of F J -> second_derivs J H -> forall v D E c u,
  E21 (degrees s) = Some E -> length c = length (cells (degrees s) edges3) -> length u = length (cells (degrees s) faces3) ->
  mat_times E c u -> deriv_inside F v D ->
  inside_element (fun x y z => pulls1 (J x y z) (through (value v) F x y z) (fun d => hat1 s c d x y z)) ->
  inside_element (fun x y z => pulls2 (J x y z) (through (value (curl_field D)) F x y z) (fun d => hat2 s u d x y z)).
Proof. exact recon_curl. Qed.
Print Assumptions C101_curl.
Example C101_curl_ex : inside_element (fun x y z => pulls2 (exJ x y z) (through (value exw) exF x y z) (fun d => hat2 sp exc2 d x y z)).
Proof.
  destruct ex_E21 as (E & HE & M). apply (recon_curl exg sp ex_basis exF exJ exH ex_jacobian ex_second exv exD E exc1 exc2 HE eq_refl eq_refl M).
  - intros x y z _ _ _ i. apply ex_deriv.
  - intros x y z _ _ _. apply ex_hat1.
Qed.

(* ... the divergence of a 2-form *)
Theorem C101_divergence : forall g s, basis3_of g s -> forall F J H, jacobian_of F J -> second_derivs J H -> forall v D E c u,
  E32 (degrees s) = Some E -> length c = length (cells (degrees s) faces3) -> length u = length (cells (degrees s) volumes3) ->
  mat_times E c u -> deriv_inside F v D ->
  inside_element (fun x y z => pulls2 (J x y z) (through (value v) F x y z) (fun d => hat2 s c d x y z)) ->
  inside_element (fun x y z => pulls3 (J x y z) (through (div_field D) F x y z) (hat3 s u x y z)).
Proof. exact recon_div. Qed.
Print Assumptions C101_divergence.
Example C101_divergence_ex : inside_element (fun x y z => pulls3 (exJ2 x y z) (through (div_field exD2) exF2 x y z) (hat3 sp exc3 x y z)).
Proof.
  destruct ex_E32 as (E & HE & M).
  apply (recon_div exg sp ex_basis exF2 exJ2 (fun _ _ _ _ _ _ => 0) ex_jacobian2 ex_second2 exu2 exD2 E exc2' exc3 HE eq_refl eq_refl M).
  - intros x y z _ _ _ i. apply ex_deriv2.
  - intros x y z _ _ _. apply ex_hat2'.
Qed.
