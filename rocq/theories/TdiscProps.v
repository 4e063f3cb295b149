(* C114: the transformation of the square to a triangle; C115: discretization
   on triangles; C116: discretized forms have one value at each shared dof. *)
From Coq Require Import Reals List ZArith Lra.
From Verif Require Import CtModel CtSpec RingSum SpaceModel SpaceSpec DiscModel DiscSpec DiscExample Disc2Model Disc2Spec Disc2Example.
From Verif Require Import TriModel TriSpec TriExample TdiscModel TdiscSpec TdiscProofs TdiscProofs2 TdiscProofs3 TdiscProofs4 TdiscExample.
Import ListNotations.
Open Scope R_scope.

(* one side goes to the first corner, the others to the three sides *)
Theorem C114_sides : forall a b c t,
  image (tct_mapping a b c) t (-1) = a /\
  image (tct_mapping a b c) 1 t = between a b ((t + 1) / 2) /\
  image (tct_mapping a b c) (-1) t = between a c ((t + 1) / 2) /\
  image (tct_mapping a b c) t 1 = between c b ((t + 1) / 2).
Proof. exact tct_sides. Qed.
Print Assumptions C114_sides.
Example C114_sides_ex : image (tct_mapping exA exB exC) 0 1 = (1, 1).
Proof. unfold image. rewrite tct_x, tct_y. unfold exA, exB, exC. cbn [fst snd]. f_equal; field. Qed.
(* the open square goes one to one onto the inside of the triangle *)
Theorem C114_inside : forall a b c r s, 0 < area2 a b c -> in_open r -> in_open s -> in_tri a b c (image (tct_mapping a b c) r s).
Proof. exact tct_in. Qed.
Print Assumptions C114_inside.
Example C114_inside_ex : 0 < area2 exA exB exC /\ in_open 0.
Proof. split; [exact tri_area|unfold in_open; lra]. Qed.
Theorem C114_onto : forall a b c q, in_tri a b c q -> exists r s, in_open r /\ in_open s /\ image (tct_mapping a b c) r s = q.
Proof. exact tct_onto. Qed.
Print Assumptions C114_onto.
Example C114_onto_ex : in_tri exA exB exC (1 / 2, 1 / 2).
Proof. unfold in_tri, area2, exA, exB, exC. cbn [fst snd]. lra. Qed.
Theorem C114_one_to_one : forall a b c r s r' s', area2 a b c <> 0 -> -1 < s -> -1 < s' ->
  image (tct_mapping a b c) r s = image (tct_mapping a b c) r' s' -> r = r' /\ s = s'.
Proof. exact tct_inj. Qed.
Print Assumptions C114_one_to_one.
Example C114_one_to_one_ex : area2 exA exB exC <> 0.
Proof. unfold area2, exA, exB, exC. cbn. lra. Qed.
(* the matrix of derivatives, its determinant, its inverse *)
Theorem C114_jacobian : forall a b c, jacobian2_of (tct_mapping a b c) (tct_Jacobian_matrix a b c).
Proof. exact tct_jacobian. Qed.
Print Assumptions C114_jacobian.
Example C114_jacobian_ex : tct_Jacobian_matrix exA exB exC 0 0 = ((1 / 2, 1 / 2), (- (1 / 2), 1 / 2)).
Proof. rewrite tct_J. unfold exA, exB, exC. cbn [fst snd]. f_equal; f_equal; field. Qed.
Theorem C114_determinant : forall a b c r s, ct2_Jacobian (tct_Jacobian_matrix a b c r s) = (s + 1) / 8 * area2 a b c.
Proof. exact tct_det. Qed.
Print Assumptions C114_determinant.
Example C114_determinant_ex : ct2_Jacobian (tct_Jacobian_matrix exA exB exC 0 0) = 1 / 2.
Proof. rewrite tct_det. unfold area2, exA, exB, exC. cbn [fst snd]. field. Qed.
Theorem C114_inverse : forall a b c r s, 0 < area2 a b c -> -1 < s -> let m := tct_Jacobian_matrix a b c r s in
  (inverse2 m (ct2_inverse m) /\ inverse2 (ct2_inverse m) m) /\ ct2_inverse_Jacobian (ct2_inverse m) * ct2_Jacobian m = 1 /\
  inverse2 (ct2_metric_matrix m) (ct2_inverse_metric_matrix (ct2_inverse m)) /\ inverse2 (ct2_inverse_metric_matrix (ct2_inverse m)) (ct2_metric_matrix m).
Proof. exact tct_inverse. Qed.
Print Assumptions C114_inverse.
Example C114_inverse_ex : 0 < area2 exA exB exC /\ -1 < 0.
Proof. split; [exact tri_area|lra]. Qed.
(* on the collapsed side there is no inverse *)
Theorem C114_singular_refuted : forall a b c r m, ~ inverse2 (tct_Jacobian_matrix a b c r (-1)) m.
Proof. exact tct_singular. Qed.
Print Assumptions C114_singular_refuted.
Example C114_singular_ex : ct2_Jacobian (tct_Jacobian_matrix exA exB exC 0 (-1)) = 0.
Proof. rewrite tct_det. field. Qed.

(* dofs are values at nodes, integrals along edges with the sign of the
   transition matrix, and integrals over faces *)
Theorem C115_nodes : forall p n, length n = S p -> forall a b c f k, nth 0 n 0 = -1 -> node_ok p k ->
  nth (Z.to_nat (dofn p k)) (tdisc0 p n (tct_mapping a b c) f) 0 =
  through2 f (tct_mapping a b c) (fst (node_pos n k)) (snd (node_pos n k)).
Proof. exact tdisc0_at. Qed.
Print Assumptions C115_nodes.
Example C115_nodes_ex : length exN0 = 3%nat /\ nth 0 exN0 0 = -1 /\ node_ok 2 (Nd 1 2) /\ dofn 2 (Nd 1 2) = 5%Z.
Proof. repeat split; cbn; auto with arith. Qed.
Theorem C115_edges : forall p n r0 r1, length n = S p -> forall o M c F J v e, edge_ok p e ->
  nth (Z.to_nat (dofe o p e)) (tdisc1 o p n r0 r1 M c F J v) 0 =
  IZR (transition o p M c (Z.to_nat (dofe o p e))) * int_edge o (mkGrid2 n n r0 r1) F J v e.
Proof. exact tdisc1_at. Qed.
Print Assumptions C115_edges.
Example C115_edges_ex : edge_ok 2 (Dx 1 2) /\ dofe Inner 2 (Dx 1 2) = 3%Z /\ dofe Outer 2 (Dx 1 2) = 9%Z.
Proof. repeat split; cbn; auto with arith. Qed.
Theorem C115_faces : forall p n r0 r1, length n = S p -> forall F J f i j, (i < p)%nat -> (j < p)%nat ->
  nth (Z.to_nat (tln2 p i j)) (tdisc2 p n r0 r1 F J f) 0 = int2_2 (mkGrid2 n n r0 r1) F J f (face_cell i j).
Proof. exact tdisc2_at. Qed.
Print Assumptions C115_faces.
Example C115_faces_ex : int2_2 (mkGrid2 exN0 exN0 mid mid) (tct_mapping exA exB exC) (tct_Jacobian_matrix exA exB exC) (fun _ _ => 1) (face_cell 0 1) = 3 / 4.
Proof.
  unfold int2_2, face_cell, quad2, rsum, cross2, mcol, comp, through2, factor_rule, mid, exN0. cbn [fst snd combine map fold_right hx hy sx sy nth].
  rewrite !tct_J. unfold exA, exB, exC. cbn [fst snd]. field.
Qed.
Theorem C115_length : forall p n r0 r1, length n = S p -> forall o M c F J f v,
  length (tdisc0 p n F f) = tnb0 p /\ length (tdisc1 o p n r0 r1 M c F J v) = tnb1 p /\ length (tdisc2 p n r0 r1 F J f) = tnb2 p.
Proof. intros p n r0 r1 H o M c F J f v. exact (conj (tdisc0_len p n H F f) (conj (tdisc1_len p n r0 r1 H o M c F J v) (tdisc2_len p n r0 r1 F J f))). Qed.
Print Assumptions C115_length.
Example C115_length_ex : tnb0 2 = 7%nat /\ tnb1 2 = 10%nat /\ tnb2 2 = 4%nat.
Proof. repeat split. Qed.
(* gradient and rotated gradient, rotation and divergence *)
Theorem C115_gradients : forall p n r0 r1 a b c, length n = S p -> nth 0 n 0 = -1 -> forall o M k f G,
  (forall x y, has_grad2 f x y (match o with Inner => value2 G x y | Outer => (- snd (value2 G x y), fst (value2 G x y)) end)) ->
  (forall d, integrates_along2 (mkGrid2 n n r0 r1) d (through2 f (tct_mapping a b c))) ->
  mat_times (incidence0 o p M k) (tdisc0 p n (tct_mapping a b c) f) (tdisc1 o p n r0 r1 M k (tct_mapping a b c) (tct_Jacobian_matrix a b c) G).
Proof. exact tri_d0. Qed.
Print Assumptions C115_gradients.
Example C115_gradients_ex : forall o,
  mat_times (incidence0 o 2 sq_sides 1) (tdisc0 2 exN0 (tct_mapping exA exB exC) exf2)
    (tdisc1 o 2 exN0 two two sq_sides 1 (tct_mapping exA exB exC) (tct_Jacobian_matrix exA exB exC) (match o with Inner => exG2 | Outer => exR2 end)).
Proof. intros o. apply tri_d0; [reflexivity|reflexivity|destruct o; [exact ex2_rot|exact ex2_grad]|exact tri_along_f]. Qed.
Theorem C115_rotation_divergence : forall p n r0 r1 s0 s1 a b c, length n = S p -> nth 0 n 0 = -1 -> forall o M k v D,
  let F := tct_mapping a b c in let J := tct_Jacobian_matrix a b c in
  deriv2_of v D ->
  (forall d, integrates_along2 (mkGrid2 n n s0 s1) (negb d) (match o with Inner => circ F J v d | Outer => flux F J v d end)) ->
  (forall d, agree_along2 n n r0 r1 s0 s1 d (match o with Inner => circ F J v d | Outer => flux F J v d end)) ->
  mat_times (incidence1 o p M k) (tdisc1 o p n r0 r1 M k F J v) (tdisc2 p n s0 s1 F J (match o with Inner => rot2 D | Outer => div2 D end)).
Proof. exact tri_d1. Qed.
Print Assumptions C115_rotation_divergence.
Example C115_rotation_divergence_ex : forall o,
  mat_times (incidence1 o 2 sq_sides 1)
    (tdisc1 o 2 exN0 two two sq_sides 1 (tct_mapping exA exB exC) (tct_Jacobian_matrix exA exB exC) (match o with Inner => exv2 | Outer => exu2 end))
    (tdisc2 2 exN0 mid mid (tct_mapping exA exB exC) (tct_Jacobian_matrix exA exB exC) (match o with Inner => rot2 exDv2 | Outer => div2 exDu2 end)).
Proof.
  intros o. destruct o; [apply (tri_d1 2 exN0 two two mid mid exA exB exC eq_refl eq_refl Outer)|apply (tri_d1 2 exN0 two two mid mid exA exB exC eq_refl eq_refl Inner)];
    [exact ex2_deriv_u|intros d; apply tri_flux|intros d; apply tri_flux|exact ex2_deriv_v|exact tri_circ|exact tri_agree].
Qed.

(* dofs with the same global number get the same value in all elements *)
Theorem C116_nodes : forall conds pts cells0 cells M p n, make_mesh conds pts cells0 = Some (cells, M) -> no_overlap pts cells -> (1 <= p)%nat -> sym_nodes p n ->
  let F c := tct_mapping (corner_pt pts cells c 0) (corner_pt pts cells c 1) (corner_pt pts cells c 2) in
  forall A m f c k c' k', numbering0 p cells M = Some (A, m) -> (c < length cells)%nat -> (c' < length cells)%nat ->
  (k < tnb0 p)%nat -> (k' < tnb0 p)%nat -> num0 p A c k = num0 p A c' k' ->
  nth k (tdisc0 p n (F c) f) 0 = nth k' (tdisc0 p n (F c') f) 0.
Proof. exact single0. Qed.
Print Assumptions C116_nodes.
Example C116_nodes_ex : make_mesh sq_conds sq_pts sq_given = Some (sq_cells, sq_sides) /\ no_overlap sq_pts sq_cells /\ sym_nodes 2 exN0 /\
  exists A m, numbering0 2 sq_cells sq_sides = Some (A, m) /\ num0 2 A 0 1 = num0 2 A 1 1.
Proof.
  split; [exact sq_mesh|split; [exact sq_apart|split; [exact exN0_sym|]]].
  destruct (numbering0 2 sq_cells sq_sides) as [[A m]|] eqn:E; [|vm_compute in E; discriminate].
  exists A, m. split; [reflexivity|]. vm_compute in E. injection E as <- <-. vm_compute. reflexivity.
Qed.
Theorem C116_edges : forall conds pts cells0 cells M p n, make_mesh conds pts cells0 = Some (cells, M) -> no_overlap pts cells -> (1 <= p)%nat -> sym_nodes p n ->
  forall r, sym_rule r -> forall v o A m c k c' k',
  let F c := tct_mapping (corner_pt pts cells c 0) (corner_pt pts cells c 1) (corner_pt pts cells c 2) in
  let J c := tct_Jacobian_matrix (corner_pt pts cells c 0) (corner_pt pts cells c 1) (corner_pt pts cells c 2) in
  numbering1 o p M = Some (A, m) -> (c < length cells)%nat -> (c' < length cells)%nat ->
  (k < tnb1 p)%nat -> (k' < tnb1 p)%nat -> num1 o p A c k = num1 o p A c' k' ->
  nth k (tdisc1 o p n r r M c (F c) (J c) v) 0 = nth k' (tdisc1 o p n r r M c' (F c') (J c') v) 0.
Proof. exact single1. Qed.
Print Assumptions C116_edges.
Example C116_edges_ex : make_mesh sq_conds kite_pts kite_cells = Some (kite_cells, kite_sides) /\ no_overlap kite_pts kite_cells /\ sym_nodes 1 exN1 /\ sym_rule two /\
  exists A m, numbering1 Inner 1 kite_sides = Some (A, m) /\ num1 Inner 1 A 0 0 = num1 Inner 1 A 1 1.
Proof.
  split; [exact kite_mesh|split; [exact kite_apart|split; [exact exN1_sym|split; [exact two_sym|]]]].
  destruct kite_differ as (A & m & H0 & H1 & _). exists A, m. split; assumption.
Qed.
(* but not with different rules in the two directions *)
Theorem C116_two_rules_refuted : exists conds pts cells0 cells M p n r0 r1 v A m c k c' k',
  let F c := tct_mapping (corner_pt pts cells c 0) (corner_pt pts cells c 1) (corner_pt pts cells c 2) in
  let J c := tct_Jacobian_matrix (corner_pt pts cells c 0) (corner_pt pts cells c 1) (corner_pt pts cells c 2) in
  make_mesh conds pts cells0 = Some (cells, M) /\ no_overlap pts cells /\ (1 <= p)%nat /\ sym_nodes p n /\ sym_rule r0 /\ sym_rule r1 /\
  numbering1 Inner p M = Some (A, m) /\ (c < length cells)%nat /\ (c' < length cells)%nat /\ (k < tnb1 p)%nat /\ (k' < tnb1 p)%nat /\
  num1 Inner p A c k = num1 Inner p A c' k' /\
  nth k (tdisc1 Inner p n r0 r1 M c (F c) (J c) v) 0 <> nth k' (tdisc1 Inner p n r0 r1 M c' (F c') (J c') v) 0.
Proof. exact two_rules. Qed.
Print Assumptions C116_two_rules_refuted.
