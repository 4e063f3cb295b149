(* C87, C88: coordinate transformations of elements and sides. *)
From Coq Require Import Reals List QArith Qcanon.
From Verif Require Import TfiModel TfiSpec SpacingModel CtModel CtSpec CtProofs CtProofs2 CtExample.
Import ListNotations.
Open Scope R_scope.

(* ---- C87 ---- *)
(* the coded matrix of an element holds the derivatives of its map, whatever the map of the region *)
Theorem C87_chain_rule : forall f m e, jacobian_of f m ->
  jacobian_of (ct_mapping f e) (ct_Jacobian_matrix m false e) /\
  (forall xi eta sg i j, ct_J m e i j xi eta sg = ent (ct_Jacobian_matrix m false e xi eta sg) i j) /\
  (forall xi eta sg, ct_Jacobian (ct_Jacobian_matrix m false e xi eta sg) =
    det3 (m (to_ref e cX xi) (to_ref e cY eta) (to_ref e cZ sg)) *
    (get (e_d e) cX * get (e_d e) cY * get (e_d e) cZ / 8)).
Proof. exact chain_spec. Qed.
Print Assumptions C87_chain_rule.
Example C87_chain_rule_ex : jacobian_of (TfiModel.crazy_map (/ 10) ((0, 1), (0, 2), (0, 1)))
    (TfiModel.crazy_Jacobian_matrix (/ 10) ((0, 1), (0, 2), (0, 1))) /\
  to_ref part cX (-1) = / 4 /\ to_ref part cX 1 = / 2 /\ to_ref part cY 1 = 1.
Proof. exact part_case. Qed.

(* the shortcut for orthogonal elements *)
Theorem C87_orthogonal : forall m e xi eta sg,
  (forall r s t i j, i <> j -> ent (m r s t) i j = 0) ->
  ct_Jacobian_matrix m true e xi eta sg = ct_Jacobian_matrix m false e xi eta sg.
Proof. exact ct_orth. Qed.
Print Assumptions C87_orthogonal.
Example C87_orthogonal_ex : forall i j, i <> j -> ent ((2, 0, 0), (0, 3, 0), (0, 0, 5)) i j = 0.
Proof. intros i j H. destruct i, j; try reflexivity; exfalso; apply H; reflexivity. Qed.

(* inverse, metric and their determinants *)
Theorem C87_inverse : forall J, det3 J <> 0 ->
  let iJ := ct_inverse_Jacobian_matrix J in
  inverse J iJ /\ ct_inverse_Jacobian iJ = / det3 J /\ ct_metric J = det3 (ct_metric_matrix J) /\
  gram_of J (ct_metric_matrix J) /\ inverse (ct_metric_matrix J) (ct_inverse_metric_matrix iJ).
Proof. exact inverse_spec. Qed.
Print Assumptions C87_inverse.
Example C87_inverse_ex : det3 skew = 7 /\ ct_metric_matrix skew = ((5, 2, 3), (2, 2, 1), (3, 1, 10)).
Proof. exact skew_case. Qed.

(* elements beside each other in a region meet point by point on the common side *)
Theorem C87_neighbours : forall axes lay rs ss i j k s i' j' k', upper s = true ->
  parse_layout axes = Some (lay, rs, ss) -> length axes = 3%nat ->
  (i' < nth 0 lay 0 /\ j' < nth 1 lay 0 /\ k' < nth 2 lay 0)%nat ->
  next_index (across s) (i, j, k) (i', j', k') ->
  exists e e', elem_at rs ss [i; j; k] = Some e /\ elem_at rs ss [i'; j'; k'] = Some e' /\
    (forall d, 0 < get (e_d e) d) /\ (forall d, 0 < get (e_d e') d) /\
    forall f c a b, tr_mapping f e s c a b = tr_mapping f e' (opposite s) c a b.
Proof. exact neighbour_spec. Qed.
Print Assumptions C87_neighbours.
Example C87_neighbours_ex : exists lay rs ss,
  parse_layout [Num 2; Sizes [Q2Qc 1; Q2Qc 2]; Num 1] = Some (lay, rs, ss) /\
  lay = [2%nat; 2%nat; 1%nat] /\ upper tE = true /\ next_index (across tE) (1, 0, 0)%nat (1, 1, 0)%nat.
Proof. exact layout_case. Qed.

(* a side: tangents, squared area, unit normal, outward direction *)
Theorem C87_side : forall f m e s a b, jacobian_of f m ->
  match full_ep s a b with
  | (x, y, z) =>
      let J := ct_Jacobian_matrix m false e x y z in
      let u := col J (first s) in let v := col J (second s) in
      side_tangents (tr_mapping f e s) a b u v /\
      tr_metric (tr_Jacobian_matrix J s) = dot (cross u v) (cross u v) /\
      (det3 J <> 0 ->
         let n := unit_normal (tr_Jacobian_matrix J s) in
         dot n n = 1 /\ dot n u = 0 /\ dot n v = 0 /\
         (points_out (outward_normal (tr_Jacobian_matrix J s) s) J s <-> 0 < det3 J))
  end.
Proof. exact side_spec. Qed.
Print Assumptions C87_side.
Example C87_side_ex : jacobian_of straight (fun _ _ _ => straight_J) /\ jacobian_of sheared (fun _ _ _ => sheared_J).
Proof. exact (conj straight_jacobian sheared_jacobian). Qed.

(* rows of the inverse against columns, in the order of the code (W and E swapped) *)
Theorem C87_side_inverse : forall J s, det3 J <> 0 ->
  match tr_inverse_Jacobian_matrix (ct_inverse_Jacobian_matrix J) s, tcols (tr_Jacobian_matrix J s) with
  | (r0, r1), (c0, c1) => dot r0 c0 = 1 /\ dot r0 c1 = 0 /\ dot r1 c0 = 0 /\ dot r1 c1 = 1
  end.
Proof. exact tr_left_inverse. Qed.
Print Assumptions C87_side_inverse.
Example C87_side_inverse_ex : tcols (tr_Jacobian_matrix skew tW) = ((0, 1, 3), (2, 0, 1)).
Proof. reflexivity. Qed.

(* the normal asked for by the element at the other side *)
Theorem C87_neighbour_normal : forall m e e' s a b, upper s = true -> behind e e' (across s) ->
  match full_ep s a b, full_ep (opposite s) a b with
  | (x, y, z), (x', y', z') =>
      let J := ct_Jacobian_matrix m false e x y z in
      let J' := ct_Jacobian_matrix m false e' x' y' z' in
      det3 J <> 0 -> det3 J' <> 0 ->
      (points_out (outward_normal (tr_Jacobian_matrix J s) (opposite s)) J' (opposite s) <-> 0 < det3 J')
  end.
Proof. exact neighbour_normal_spec. Qed.
Print Assumptions C87_neighbour_normal.
Example C87_neighbour_normal_ex : behind (fst halves) (snd halves) cX.
Proof. exact halves_case. Qed.

(* ---- C88 ---- *)
(* a reconstructed 1-trace has the right components along the side; the mass weights are its products *)
Theorem C88_tangential : forall J s, det3 J <> 0 ->
  let K := tr_inverse_Jacobian_matrix (ct_inverse_Jacobian_matrix J) s in
  let u := col J (first s) in let v := col J (second s) in
  (forall v0 v1, dot (tr1_reconstruct K s v0 v1) u = v0 /\ dot (tr1_reconstruct K s v0 v1) v = v1) /\
  (forall v0 v1 w0 w1,
     match tr1_weights (tr_Jacobian_matrix J s) K s false with
     | (m00, m01, m11) => m00 * (v0 * w0) + m01 * (v0 * w1 + v1 * w0) + m11 * (v1 * w1) =
         sqrt (dot (cross u v) (cross u v)) * dot (tr1_reconstruct K s v0 v1) (tr1_reconstruct K s w0 w1)
     end).
Proof. exact tr1_spec. Qed.
Print Assumptions C88_tangential.
Example C88_tangential_ex : det3 skew = 7.
Proof. exact (proj1 skew_case). Qed.

(* it lies in the side, and the inverse metric is one, exactly if the element is orthogonal to the side *)
Theorem C88_intrinsic_partial : forall J s, det3 J <> 0 ->
  let K := tr_inverse_Jacobian_matrix (ct_inverse_Jacobian_matrix J) s in
  let t := col J (first s) in let t' := col J (second s) in
  (ortho J s <-> inverse2 (tr_metric_matrix (tr_Jacobian_matrix J s)) (tr_inverse_metric_matrix K)) /\
  (ortho J s <-> forall v0 v1, dot (tr1_reconstruct K s v0 v1) (cross t t') = 0) /\
  (ortho J s ->
   match tr1_weights (tr_Jacobian_matrix J s) K s false with
   | (m00, m01, m11) =>
       let area := sqrt (dot (cross t t') (cross t t')) in
       m00 * dot t t + m01 * dot t t' = area /\ m00 * dot t t' + m01 * dot t' t' = 0 /\
       m01 * dot t t + m11 * dot t t' = 0 /\ m01 * dot t t' + m11 * dot t' t' = area
   end) /\
  (ortho J s -> dot t t' = 0 ->
   tr1_weights (tr_Jacobian_matrix J s) K s true = tr1_weights (tr_Jacobian_matrix J s) K s false).
Proof. exact tr1_ortho_spec. Qed.
Print Assumptions C88_intrinsic_partial.
Example C88_intrinsic_ex : det3 ((3, 0, 0), (0, 2, 1), (0, 1, 2)) = 9 /\ ortho ((3, 0, 0), (0, 2, 1), (0, 1, 2)) tN.
Proof. exact ortho_case. Qed.

(* two regions with a common side: the value and the mass depend on the element the core has *)
Theorem C88_same_from_both_elements_refuted : exists f m f' m' e, jacobian_of f m /\ jacobian_of f' m' /\
  (forall r s t, 0 < det3 (m r s t) /\ 0 < det3 (m' r s t)) /\
  (forall c a b, tr_mapping f e tS c a b = tr_mapping f' e tN c a b) /\
  (forall a b, side_value m e tS a b 1 0 <> side_value m' e tN a b 1 0 /\
     fst (fst (side_weights m e tS a b)) = 1 /\ fst (fst (side_weights m' e tN a b)) = 2).
Proof. exact tr1_differs. Qed.
Print Assumptions C88_same_from_both_elements_refuted.
