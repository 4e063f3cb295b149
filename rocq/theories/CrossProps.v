(* C103, C104: inner products with cross products *)
From Coq Require Import Reals List ZArith.
From Verif Require Import TfiModel TfiSpec CtModel CtSpec SpaceModel SpaceSpec SpaceProofs3 RingSum DiscModel DiscSpec DiscExample.
From Verif Require Import ReconModel ReconSpec ReconExample CrossModel CrossSpec CrossProofs CrossProofs2 CrossExample.
Import ListNotations.
Open Scope R_scope.

(* C103: where the determinant is constant the arrays of the helpers are the
   integrals of (w x u) . e, for forms w, u, e of degrees one and two *)
Theorem C103_constant_partial : forall kw ku ke sw su se q J orth cw cu ce vw vu ve,
  nonzero_det q J -> orth_ok q J orth ->
  form_at kw sw (qmesh q) J cw vw -> form_at ku su (qmesh q) J cu vu -> form_at ke se (qmesh q) J ce ve ->
  rules_ok q -> constant_det q J ->
  tri (cross_product kw ku ke sw su se q J orth) cw cu ce = triple q J vw vu ve.
Proof. exact tri_C. Qed.
Print Assumptions C103_constant_partial.
Example C103_constant_ex : tri (cross_product k1 k1 k1 usp usp usp uq uJ true) (uc cX) (uc cY) (uc cZ) = 1.
Proof.
  rewrite (tri_C k1 k1 k1 usp usp usp uq uJ true _ _ _ (uv cX) (uv cY) (uv cZ) u_nonzero u_diag (u_form cX _) (u_form cY _) (u_form cZ _) ltac:(repeat split) u_const).
  unfold triple, quad3, uq, rsum, uv, uJ, det3, cross, dot, csum; cbn. field.
Qed.

(* with other determinants they are not: the determinants are in another order
   than the points *)
Theorem C103_order_refuted : forall kw ku ke g, 0 < g < 1 -> exists F J s cw cu ce vw vu ve,
  jacobian_of F J /\ nonzero_det (xq g) J /\
  form_at kw s (qmesh (xq g)) J cw vw /\ form_at ku s (qmesh (xq g)) J cu vu /\ form_at ke s (qmesh (xq g)) J ce ve /\
  tri (cross_product kw ku ke s s s (xq g) J false) cw cu ce <> triple (xq g) J vw vu ve.
Proof. exact order_refuted. Qed.
Print Assumptions C103_order_refuted.

(* the shape of the arrays, the matrices of '2-M-1' and '2-M-0' *)
Theorem C103_shape : forall kw ku ke sw su se q J orth dJ,
  has_shape3 (cp3 kw ku ke sw su se q J orth dJ) (nbasis kw sw) (nbasis ku su) (nbasis ke se).
Proof. exact cp3_shape. Qed.
Print Assumptions C103_shape.
Theorem C103_2M1 : forall M ni nj nk a b c, has_shape3 M ni nj nk -> length a = ni -> length b = nj -> length c = nk ->
  bilinear (out_2M1 M a nj nk) c b = tri M a b c /\ has_shape (out_2M1 M a nj nk) nk nj.
Proof. exact out_2M1_ok. Qed.
Print Assumptions C103_2M1.
Theorem C103_2M0 : forall M ni nj nk a b c, has_shape3 M ni nj nk -> length a = ni -> length b = nj -> length c = nk ->
  bilinear (out_2M0 M b nk) c a = tri M a b c /\ has_shape (out_2M0 M b nk) nk ni.
Proof. exact out_2M0_ok. Qed.
Print Assumptions C103_2M0.
Example C103_outputs_ex :
  bilinear (out_2M1 (cross_product k1 k1 k1 usp usp usp uq uJ true) (uc cX) 12 12) (uc cZ) (uc cY) = 1 /\
  bilinear (out_2M0 (cross_product k1 k1 k1 usp usp usp uq uJ true) (uc cY) 12) (uc cZ) (uc cX) = 1.
Proof.
  destruct (out_2M1_ok _ 12 12 12 (uc cX) (uc cY) (uc cZ) (cp3_shape k1 k1 k1 usp usp usp uq uJ true (detJC uq uJ)) eq_refl eq_refl eq_refl) as (H & _).
  destruct (out_2M0_ok _ 12 12 12 (uc cX) (uc cY) (uc cZ) (cp3_shape k1 k1 k1 usp usp usp uq uJ true (detJC uq uJ)) eq_refl eq_refl eq_refl) as (H' & _).
  split; [etransitivity; [exact H|]|etransitivity; [exact H'|]]; exact C103_constant_ex.
Qed.
(* the matrix '2-M-0' of cross_product_1__ip_1.py is another one *)
Theorem C103_2M0_refuted : exists F J s q cw cu ce vw vu ve T,
  jacobian_of F J /\ rules_ok q /\ nonzero_det q J /\ orth_ok q J true /\ constant_det q J /\
  form_at k1 s (qmesh q) J cw vw /\ form_at k1 s (qmesh q) J cu vu /\ form_at k1 s (qmesh q) J ce ve /\
  out_2M0_11 (cross_product k1 k1 k1 s s s q J true) cu (nbasis k1 s) = Some T /\ bilinear T ce cw <> triple q J vw vu ve.
Proof. exact two_M_0_refuted. Qed.
Print Assumptions C103_2M0_refuted.

(* C104: the array and the vector of curl1_cross_product_1__ip_2.py are the
   integrals of (w x u) . e and (curl u x u) . e on all elements *)
Theorem C104_array : forall su se q J orth cw cu ce vw vu ve,
  nonzero_det q J -> orth_ok q J orth ->
  form_at k2 su (qmesh q) J cw vw -> form_at k1 su (qmesh q) J cu vu -> form_at k2 se (qmesh q) J ce ve -> rules_ok q ->
  tri (curl_cross su se q J orth) cw cu ce = triple q J vw vu ve.
Proof. exact (fun su se => tri_F k2 k1 k2 su su se). Qed.
Print Assumptions C104_array.
Example C104_array_ex : tri (curl_cross xsp xsp (xq (1 / 2)) exJ false) (xcells k2 xw) (xcells k1 xu) (xcells k2 xe) = 0.
Proof.
  assert (G : 0 < 1 / 2 < 1) by Lra.lra.
  rewrite <- (x_triple (1 / 2)). apply C104_array; [exact (xq_det _ G)|discriminate|apply xform_w|apply xform_u|apply xform_e|apply xq_ok].
Qed.
Theorem C104_vector : forall g s, basis3_of g s -> forall F J H, jacobian_of F J -> second_derivs J H -> forall v D E c,
  E21 (degrees s) = Some E -> length c = length (cells (degrees s) edges3) -> deriv_inside F v D ->
  inside_element (fun x y z => pulls1 (J x y z) (through (value v) F x y z) (fun d => hat1 s c d x y z)) ->
  forall se q orth ce ve, rules_ok q -> inside_grid (qmesh q) -> nonzero_det q J -> orth_ok q J orth -> form_at k2 se (qmesh q) J ce ve ->
  dotl ce (curl_vec (curl_cross s se q J orth) E c (nbasis k2 se)) = triple q J (through (value (curl_field D)) F) (through (value v) F) ve.
Proof. exact curl_cross_ok. Qed.
Print Assumptions C104_vector.
Example C104_vector_ex : exists E, E21 (degrees sp) = Some E /\
  dotl exc2 (curl_vec (curl_cross sp sp (xq (1 / 2)) exJ false) E exc1 (nbasis k2 sp)) =
  triple (xq (1 / 2)) exJ (through (value exw) exF) (through (value exv) exF) (through (value exw) exF).
Proof.
  assert (G : 0 < 1 / 2 < 1) by Lra.lra.
  destruct ex_E21 as (E & HE & _). exists E. split; [exact HE|].
  apply (C104_vector exg sp ex_basis exF exJ exH ex_jacobian ex_second exv exD E exc1 HE eq_refl); try reflexivity.
  - intros x y z _ _ _ i. apply ex_deriv.
  - intros x y z _ _ _. apply ex_hat1.
  - apply xq_ok.
  - apply xq_inside. exact G.
  - apply xq_det. exact G.
  - discriminate.
  - split; [reflexivity|]. intros x y z _ _ _. apply ex_hat2.
Qed.
(* on orthogonal elements with constant determinant the array of
   inner_curl_cross_2f2f.py is the integral of curl(u x B) . b, when u x B is a
   1-form of the new space and the mass matrix integrates it as q does *)
Theorem C104_inner_curl : forall g s, basis3_of g s -> forall F J H, jacobian_of F J -> second_derivs J H -> forall v D E c,
  E21 (degrees s) = Some E -> length c = length (cells (degrees s) edges3) -> deriv_inside F v D ->
  inside_element (fun x y z => pulls1 (J x y z) (through (value v) F x y z) (fun d => hat1 s c d x y z)) ->
  forall su sB sb q q' q1 invM a b e vu vB ve,
  rules_ok q -> rules_ok q' -> inside_grid (qmesh q) -> inside_grid (qmesh q') ->
  nonzero_det q J -> nonzero_det q' J -> orth_ok q J true -> orth_ok q' J true -> constant_det q J ->
  form_at k2 su (qmesh q) J a vu -> form_at k2 sB (qmesh q) J b vB -> form_at k2 sb (qmesh q') J e ve ->
  on_grid (qmesh q) (fun x y z => through (value v) F x y z = cross (vu x y z) (vB x y z)) ->
  inverse_of (inner1 true true s s q1 J) invM (nbasis k1 s) ->
  (forall e', length e' = nbasis k1 s -> bilinear (inner1 true true s s q1 J) e' c = bilinear (inner1 true true s s q J) e' c) ->
  tri (inner_curl su sB sb s q q' J invM E) a b e = quad3 q' (fun x y z => det3 (J x y z) * dot (through (value (curl_field D)) F x y z) (ve x y z)).
Proof. exact inner_curl_ok. Qed.
Print Assumptions C104_inner_curl.
Example C104_inner_curl_ex : exists E, E21 (degrees nsp) = Some E /\
  tri (inner_curl usp usp usp nsp nq nq exJ2 ninv E) (n2 nu) (n2 xe) (n2 xe) = 32.
Proof. exact n_value. Qed.
