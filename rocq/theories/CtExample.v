(* Cases for the theorems about coordinate transformations. *)
From Coq Require Import Reals List Lra Lia QArith Qcanon Qreals.
From Verif Require Import TfiModel TfiSpec TfiProofs TfiProofs2 TfiProofs3 SpacingModel SpacingProofs CtModel CtSpec
  CtProofs CtProofs2.
Import ListNotations.
Open Scope R_scope.

Lemma chain_spec : forall f m e, jacobian_of f m ->
  jacobian_of (ct_mapping f e) (ct_Jacobian_matrix m false e) /\
  (forall xi eta sg i j, ct_J m e i j xi eta sg = ent (ct_Jacobian_matrix m false e xi eta sg) i j) /\
  (forall xi eta sg, ct_Jacobian (ct_Jacobian_matrix m false e xi eta sg) =
    det3 (m (to_ref e cX xi) (to_ref e cY eta) (to_ref e cZ sg)) *
    (get (e_d e) cX * get (e_d e) cY * get (e_d e) cZ / 8)).
Proof.
  intros f m e H. split; [exact (ct_jacobian f m e H)|]. split; [exact (ct_entries m e)|].
  intros. rewrite ct_Jacobian_det. apply ct_det_scale.
Qed.
Lemma inverse_spec : forall J, det3 J <> 0 ->
  let iJ := ct_inverse_Jacobian_matrix J in
  inverse J iJ /\ ct_inverse_Jacobian iJ = / det3 J /\ ct_metric J = det3 (ct_metric_matrix J) /\
  gram_of J (ct_metric_matrix J) /\ inverse (ct_metric_matrix J) (ct_inverse_metric_matrix iJ).
Proof.
  intros J H iJ. split; [apply ct_inverse_ok, H|]. split; [apply ct_inverse_det, H|].
  split; [symmetry; apply ct_metric_det|].
  split; [apply ct_metric_gram|apply ct_inverse_metric_ok, H].
Qed.
Lemma neighbour_spec : forall axes lay rs ss i j k s i' j' k', upper s = true ->
  parse_layout axes = Some (lay, rs, ss) -> length axes = 3%nat ->
  (i' < nth 0 lay 0 /\ j' < nth 1 lay 0 /\ k' < nth 2 lay 0)%nat ->
  next_index (across s) (i, j, k) (i', j', k') ->
  exists e e', elem_at rs ss [i; j; k] = Some e /\ elem_at rs ss [i'; j'; k'] = Some e' /\
    (forall d, 0 < get (e_d e) d) /\ (forall d, 0 < get (e_d e') d) /\
    forall f c a b, tr_mapping f e s c a b = tr_mapping f e' (opposite s) c a b.
Proof.
  intros axes lay rs ss i j k s i' j' k' U P L I N.
  destruct (elem_neighbours _ _ _ _ _ _ _ _ _ _ _ P L I N) as (e & e' & E & E' & B & D & D').
  exists e, e'. repeat (split; [assumption|]). intros f c a b. exact (shared_side f e e' s U B c a b).
Qed.
Lemma side_spec : forall f m e s a b, jacobian_of f m ->
  match full_ep s a b with
  | (x, y, z) =>
      let J := ct_Jacobian_matrix m false e x y z in
      let u := col J (first s) in let v := col J (second s) in
      side_tangents (tr_mapping f e s) a b u v /\
      tr_metric (tr_Jacobian_matrix J s) = dot (cross u v) (cross u v) /\
      (det3 J <> 0 ->
         let n := unit_normal (tr_Jacobian_matrix J s) in
         dot n n = 1 /\ dot n u = 0 /\ dot n v = 0 /\
         (points_out (outward_normal (tr_Jacobian_matrix J s) s) J s <-> 0 < det3 J))
  end.
Proof.
  intros f m e s a b H. pose proof (side_tangents_ok f m e s H a b) as T.
  destruct (full_ep s a b) as [[x y] z]. split; [exact T|]. split; [apply tr_metric_cross|].
  intros D n. destruct (normal_ok (ct_Jacobian_matrix m false e x y z) s D) as (N1 & N2 & N3 & _).
  split; [exact N1|]. split; [exact N2|]. split; [exact N3|]. apply outward_ok, D.
Qed.
Lemma neighbour_normal_spec : forall m e e' s a b, upper s = true -> behind e e' (across s) ->
  match full_ep s a b, full_ep (opposite s) a b with
  | (x, y, z), (x', y', z') =>
      let J := ct_Jacobian_matrix m false e x y z in
      let J' := ct_Jacobian_matrix m false e' x' y' z' in
      det3 J <> 0 -> det3 J' <> 0 ->
      (points_out (outward_normal (tr_Jacobian_matrix J s) (opposite s)) J' (opposite s) <-> 0 < det3 J')
  end.
Proof.
  intros m e e' s a b U B. pose proof (shared_tangents m e e' s a b U B) as T.
  destruct (full_ep s a b) as [[x y] z]. destruct (full_ep (opposite s) a b) as [[x' y'] z'].
  intros J J' H H'. destruct T as (T1 & T2). exact (outward_neighbour J J' s H H' T1 T2).
Qed.

(* the element [1/4, 1/2] x [1/3, 1] x [0, 1] of the crazy mesh *)
Definition part : Elem := mkElem (/ 4, / 3, 0) (/ 4, 2 / 3, 1).
Lemma part_case : jacobian_of (crazy_map (/ 10) ((0, 1), (0, 2), (0, 1)))
    (crazy_Jacobian_matrix (/ 10) ((0, 1), (0, 2), (0, 1))) /\
  to_ref part cX (-1) = / 4 /\ to_ref part cX 1 = / 2 /\ to_ref part cY 1 = 1.
Proof. split; [apply crazy_jacobian|]. unfold to_ref, part; cbn; repeat split; field. Qed.
Definition skew : mat3 := ((2, 1, 0), (0, 1, 1), (1, 0, 3)).
Lemma skew_case : det3 skew = 7 /\ ct_metric_matrix skew = ((5, 2, 3), (2, 2, 1), (3, 1, 10)).
Proof. unfold skew, ct_metric_matrix. split; [cbn; ring|]. repeat f_equal; ring. Qed.
Definition halves : Elem * Elem := (mkElem (0, 0, 0) (/ 2, 1, 1), mkElem (/ 2, 0, 0) (/ 2, 1, 1)).
Lemma halves_case : behind (fst halves) (snd halves) cX.
Proof. intro c. destruct c; cbn; (split; [lra|]); intro H; try reflexivity. Qed.
Lemma layout_case : exists lay rs ss,
  parse_layout [Num 2; Sizes [Q2Qc 1; Q2Qc 2]; Num 1] = Some (lay, rs, ss) /\
  lay = [2%nat; 2%nat; 1%nat] /\ upper tE = true /\ next_index (across tE) (1, 0, 0)%nat (1, 1, 0)%nat.
Proof.
  do 3 eexists. split; [reflexivity|]. split; [reflexivity|]. split; [reflexivity|]. cbn. auto.
Qed.

(* ---- 1-traces ---- *)
Lemma tr1_spec : forall J s, det3 J <> 0 ->
  let K := tr_inverse_Jacobian_matrix (ct_inverse_Jacobian_matrix J) s in
  let u := col J (first s) in let v := col J (second s) in
  (forall v0 v1, dot (tr1_reconstruct K s v0 v1) u = v0 /\ dot (tr1_reconstruct K s v0 v1) v = v1) /\
  (forall v0 v1 w0 w1,
     match tr1_weights (tr_Jacobian_matrix J s) K s false with
     | (m00, m01, m11) => m00 * (v0 * w0) + m01 * (v0 * w1 + v1 * w0) + m11 * (v1 * w1) =
         sqrt (dot (cross u v) (cross u v)) * dot (tr1_reconstruct K s v0 v1) (tr1_reconstruct K s w0 w1)
     end).
Proof.
  intros J s H K u v. split.
  - intros v0 v1. destruct (tr1_tangential J s v0 v1 H) as (A & B & _). exact (conj A B).
  - intros v0 v1 w0 w1. exact (tr1_mass J s v0 v1 w0 w1).
Qed.
Lemma tr1_ortho_spec : forall J s, det3 J <> 0 ->
  let K := tr_inverse_Jacobian_matrix (ct_inverse_Jacobian_matrix J) s in
  let t := col J (first s) in let t' := col J (second s) in
  (ortho J s <-> inverse2 (tr_metric_matrix (tr_Jacobian_matrix J s)) (tr_inverse_metric_matrix K)) /\
  (ortho J s <-> forall v0 v1, dot (tr1_reconstruct K s v0 v1) (cross t t') = 0) /\
  (ortho J s ->
   match tr1_weights (tr_Jacobian_matrix J s) K s false with
   | (m00, m01, m11) =>
       let area := sqrt (dot (cross t t') (cross t t')) in
       m00 * dot t t + m01 * dot t t' = area /\ m00 * dot t t' + m01 * dot t' t' = 0 /\
       m01 * dot t t + m11 * dot t t' = 0 /\ m01 * dot t t' + m11 * dot t' t' = area
   end) /\
  (ortho J s -> dot t t' = 0 ->
   tr1_weights (tr_Jacobian_matrix J s) K s true = tr1_weights (tr_Jacobian_matrix J s) K s false).
Proof.
  intros J s H K t t'. split; [symmetry; exact (tr_inverse_metric_iff J s H)|].
  split; [symmetry; exact (tr1_normal_iff J s H)|].
  split; [exact (tr1_weights_ortho J s H)|exact (tr1_weights_diagonal J s H)].
Qed.
Lemma ortho_case : det3 ((3, 0, 0), (0, 2, 1), (0, 1, 2)) = 9 /\ ortho ((3, 0, 0), (0, 2, 1), (0, 1, 2)) tN.
Proof. split; [cbn; ring|]. split; unfold dot, csum, col, ent; cbn; ring. Qed.
Lemma tr1_differs : exists f m f' m' e, jacobian_of f m /\ jacobian_of f' m' /\
  (forall r s t, 0 < det3 (m r s t) /\ 0 < det3 (m' r s t)) /\
  (forall c a b, tr_mapping f e tS c a b = tr_mapping f' e tN c a b) /\
  (forall a b, side_value m e tS a b 1 0 <> side_value m' e tN a b 1 0 /\
     fst (fst (side_weights m e tS a b)) = 1 /\ fst (fst (side_weights m' e tN a b)) = 2).
Proof.
  exists straight, (fun _ _ _ => straight_J), sheared, (fun _ _ _ => sheared_J), whole.
  split; [exact straight_jacobian|]. split; [exact sheared_jacobian|].
  split; [intros; unfold straight_J, sheared_J; cbn; lra|]. split.
  - intros c a b. unfold tr_mapping, ct_mapping, to_ref, whole. cbn. destruct c; cbn; lra.
  - intros a b. destruct (shear_differs a b) as (-> & -> & -> & ->). split; [|split; reflexivity].
    intro E. apply (f_equal (fun q => fst (fst q))) in E. cbn in E. lra.
Qed.
