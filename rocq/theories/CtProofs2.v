(* Proofs about CtModel: neighbouring elements, inner products on sides. *)
From Coq Require Import Reals List Lra Lia QArith Qcanon Qreals.
From Verif Require Import TfiModel TfiSpec TfiProofs TfiProofs2 SpacingModel SpacingProofs CtModel CtSpec CtProofs.
Import ListNotations.
Open Scope R_scope.

Lemma q2r_plus : forall x y, q2r (x + y)%Qc = q2r x + q2r y.
Proof.
  intros x y. unfold q2r. rewrite <- Q2R_plus. apply Qeq_eqR. unfold Qcplus, Q2Qc. cbn [this].
  apply Qred_correct.
Qed.
Lemma q2r_pos : forall x, (Q2Qc 0 < x)%Qc -> 0 < q2r x.
Proof.
  intros x H. unfold q2r. replace 0 with (Q2R 0) by (unfold Q2R; cbn; lra). apply Qlt_Rlt. exact H.
Qed.

Lemma step_spacing : forall r i, ratios_ok r -> (S i < length r)%nat ->
  q2r (nth (S i) (axis_spacing r) (Q2Qc 0)) = q2r (nth i (axis_spacing r) (Q2Qc 0)) + q2r (nth i r (Q2Qc 0)).
Proof.
  intros r i H L. rewrite !spacing_nth by (assumption || lia). rewrite qsum_firstn_S by lia. apply q2r_plus.
Qed.

Lemma ratio_pos : forall r i, ratios_ok r -> (i < length r)%nat -> 0 < q2r (nth i r (Q2Qc 0)).
Proof.
  intros r i (H1 & H2 & _) L. apply q2r_pos. rewrite Forall_forall in H2. apply H2, nth_In, L.
Qed.
Lemma elem_neighbours : forall axes lay rs ss i j k c i' j' k',
  parse_layout axes = Some (lay, rs, ss) -> length axes = 3%nat ->
  (i' < nth 0 lay 0 /\ j' < nth 1 lay 0 /\ k' < nth 2 lay 0)%nat ->
  next_index c (i, j, k) (i', j', k') ->
  exists e e', elem_at rs ss [i; j; k] = Some e /\ elem_at rs ss [i'; j'; k'] = Some e' /\
    behind e e' c /\ (forall d, 0 < get (e_d e) d) /\ (forall d, 0 < get (e_d e') d).
Proof.
  intros axes lay rs ss i j k c i' j' k' P L (Li & Lj & Lk) N.
  destruct (parse_ok _ _ _ _ P) as (Q & -> & -> & E). rewrite L in E.
  destruct rs as [|r0 [|r1 [|r2 [|? ?]]]]; try discriminate E. cbn [map nth] in *.
  apply Forall_cons_iff in Q. destruct Q as (Q0 & Q). apply Forall_cons_iff in Q. destruct Q as (Q1 & Q).
  apply Forall_cons_iff in Q. destruct Q as (Q2 & _).
  unfold elem_at, origin_size. cbn [combine map fst snd].
  eexists _, _. split; [reflexivity|]. split; [reflexivity|].
  unfold next_index in N. destruct c; destruct N as (-> & -> & ->); cbn [e_d e_o];
    (split; [|split; intro d; destruct d; cbn [get]; apply ratio_pos; (assumption || lia)]);
    intro d; destruct d; cbn [get e_o e_d]; (split; [try (rewrite step_spacing by assumption); ring|]);
    intro D; reflexivity || (exfalso; apply D; reflexivity).
Qed.

(* ---- inner products on sides ---- *)
Lemma block_inverse : forall g00 g01 g11 u0 u1 h00 h01 h11 k0 k1 m,
  g00 * h00 + g01 * h01 + u0 * k0 = 1 -> g00 * h01 + g01 * h11 + u0 * k1 = 0 ->
  g01 * h00 + g11 * h01 + u1 * k0 = 0 -> g01 * h01 + g11 * h11 + u1 * k1 = 1 ->
  g00 * k0 + g01 * k1 + u0 * m = 0 -> g01 * k0 + g11 * k1 + u1 * m = 0 -> m <> 0 ->
  (inverse2 ((g00, g01), (g01, g11)) ((h00, h01), (h01, h11)) <-> u0 = 0 /\ u1 = 0).
Proof.
  intros g00 g01 g11 u0 u1 h00 h01 h11 k0 k1 m A B C D E F M. cbn [inverse2]. split.
  - intros (P & Q & S & T).
    assert (X : u0 * k0 = 0) by lra. assert (Y : u0 * k1 = 0) by lra.
    assert (Z : u1 * k0 = 0) by lra. assert (W : u1 * k1 = 0) by lra.
    assert (U : k0 = 0 /\ k1 = 0 -> u0 = 0 /\ u1 = 0).
    { intros (-> & ->). split; apply (Rmult_eq_reg_r m); (exact M || lra). }
    destruct (Req_dec u0 0) as [U0|U0]; [destruct (Req_dec u1 0) as [U1|U1]; [split; assumption|]|].
    + apply U. split; apply (Rmult_eq_reg_l u1); (assumption || lra).
    + apply U. split; apply (Rmult_eq_reg_l u0); (assumption || lra).
  - intros (-> & ->). repeat split; lra.
Qed.
Lemma block_cross : forall g00 g01 g11 u0 u1 h00 h01 h11 k0 k1 m n,
  h00 * g00 + h01 * g01 + k0 * u0 = 1 -> h01 * g01 + h11 * g11 + k1 * u1 = 1 ->
  h00 * u0 + h01 * u1 + k0 * n = 0 -> h01 * u0 + h11 * u1 + k1 * n = 0 ->
  g00 * k0 + g01 * k1 + u0 * m = 0 -> g01 * k0 + g11 * k1 + u1 * m = 0 -> m <> 0 -> n <> 0 ->
  ((k0 = 0 /\ k1 = 0) <-> (u0 = 0 /\ u1 = 0)).
Proof.
  intros g00 g01 g11 u0 u1 h00 h01 h11 k0 k1 m n A B C D E F M N. split; intros (-> & ->).
  - split; apply (Rmult_eq_reg_r m); (assumption || lra).
  - split; apply (Rmult_eq_reg_r n); (assumption || lra).
Qed.

Lemma row_nonzero : forall J i, det3 J <> 0 ->
  dot (vrow (ct_inverse_Jacobian_matrix J) i) (vrow (ct_inverse_Jacobian_matrix J) i) <> 0.
Proof.
  intros J i H. assert (0 < dot (vrow (ct_inverse_Jacobian_matrix J) i) (vrow (ct_inverse_Jacobian_matrix J) i)); [|lra].
  apply norm2_pos. exists (col J i). rewrite rows_cols by exact H. destruct i; cbn [delta]; lra.
Qed.
Lemma col_nonzero : forall J i, det3 J <> 0 -> dot (col J i) (col J i) <> 0.
Proof.
  intros J i H. assert (0 < dot (col J i) (col J i)); [|lra].
  apply norm2_pos. exists (vrow (ct_inverse_Jacobian_matrix J) i). rewrite dot_comm, rows_cols by exact H.
  destruct i; cbn [delta]; lra.
Qed.

Lemma dots_ok : forall J, det3 J <> 0 -> let K := ct_inverse_Jacobian_matrix J in forall i j,
  dot (col J i) (col J cX) * dot (vrow K cX) (vrow K j) +
  dot (col J i) (col J cY) * dot (vrow K cY) (vrow K j) +
  dot (col J i) (col J cZ) * dot (vrow K cZ) (vrow K j) = delta i j.
Proof.
  intros J H K i j. destruct (ct_inverse_metric_ok J H) as (A & _). fold K in A. rewrite <- (A i j).
  clearbody K. clear A H. mats. destruct i, j; unfold csum, ent, dot, vrow, col, csum, ent; cbn; ring.
Qed.
Lemma dots_ok' : forall J, det3 J <> 0 -> let K := ct_inverse_Jacobian_matrix J in forall i j,
  dot (vrow K i) (vrow K cX) * dot (col J cX) (col J j) +
  dot (vrow K i) (vrow K cY) * dot (col J cY) (col J j) +
  dot (vrow K i) (vrow K cZ) * dot (col J cZ) (col J j) = delta i j.
Proof.
  intros J H K i j. destruct (ct_inverse_metric_ok J H) as (_ & A). fold K in A. rewrite <- (A i j).
  clearbody K. clear A H. mats. destruct i, j; unfold csum, ent, dot, vrow, col, csum, ent; cbn; ring.
Qed.

Lemma tr_metric_dots : forall J s, tr_metric_matrix (tr_Jacobian_matrix J s) =
  match tcols (tr_Jacobian_matrix J s) with
  | (u, v) => ((dot u u, dot u v), (dot u v, dot v v)) end.
Proof. intros J s. mats. destruct s; reflexivity. Qed.
Lemma tr_inverse_metric_dots : forall K s, tr_inverse_metric_matrix (tr_inverse_Jacobian_matrix K s) =
  match tr_inverse_Jacobian_matrix K s with
  | (u, v) => ((dot u u, dot u v), (dot u v, dot v v)) end.
Proof. intros J s. mats. destruct s; reflexivity. Qed.
Lemma tr_rows : forall K s, tr_inverse_Jacobian_matrix K s =
  match s with tW | tE => (vrow K (second s), vrow K (first s)) | _ => (vrow K (first s), vrow K (second s)) end.
Proof. intros J s. mats. destruct s; reflexivity. Qed.

Ltac canon J K :=
  rewrite ?(dot_comm (col J cY) (col J cX)), ?(dot_comm (col J cZ) (col J cX)), ?(dot_comm (col J cZ) (col J cY)),
    ?(dot_comm (vrow K cY) (vrow K cX)), ?(dot_comm (vrow K cZ) (vrow K cX)), ?(dot_comm (vrow K cZ) (vrow K cY)) in *.
Ltac nine D H :=
  pose proof (D _ H cX cX); pose proof (D _ H cX cY); pose proof (D _ H cX cZ);
  pose proof (D _ H cY cX); pose proof (D _ H cY cY); pose proof (D _ H cY cZ);
  pose proof (D _ H cZ cX); pose proof (D _ H cZ cY); pose proof (D _ H cZ cZ).

Ltac bi J K a b c d M :=
  etransitivity; [eapply (block_inverse _ _ _ (dot (col J a) (col J b)) (dot (col J c) (col J d)) _ _ _
    (dot (vrow K a) (vrow K b)) (dot (vrow K c) (vrow K d)) _); [| | | | | |exact M]; lra|]; tauto.

Lemma tr_inverse_metric_iff : forall J s, det3 J <> 0 ->
  (inverse2 (tr_metric_matrix (tr_Jacobian_matrix J s))
            (tr_inverse_metric_matrix (tr_inverse_Jacobian_matrix (ct_inverse_Jacobian_matrix J) s))
   <-> ortho J s).
Proof.
  intros J s H. rewrite tr_metric_dots, tr_inverse_metric_dots, tr_cols, tr_rows.
  pose proof (row_nonzero J (across s) H) as M. nine dots_ok H. unfold ortho. cbv zeta in *.
  set (K := ct_inverse_Jacobian_matrix J) in *. clearbody K.
  destruct s; cbn [across first second delta] in *; canon J K;
    [bi J K cX cY cX cZ M|bi J K cX cY cX cZ M|bi J K cY cZ cX cY M|bi J K cY cZ cX cY M
    |bi J K cX cZ cY cZ M|bi J K cX cZ cY cZ M].
Qed.

(* ---- 1-traces ---- *)
Definition lin (a b : R) (u v : vec) : vec :=
  match u, v with (u0, u1, u2), (v0, v1, v2) => (a * u0 + b * v0, a * u1 + b * v1, a * u2 + b * v2) end.
Lemma dot_lin : forall a b u v w, dot (lin a b u v) w = a * dot u w + b * dot v w.
Proof. intros a b u v w. mats. unfold dot, csum. cbn. ring. Qed.
Lemma tr1_lin : forall K s v0 v1, tr1_reconstruct (tr_inverse_Jacobian_matrix K s) s v0 v1 =
  lin v0 v1 (vrow K (first s)) (vrow K (second s)).
Proof. intros K s v0 v1. mats. destruct s; reflexivity. Qed.

Lemma tr1_tangential : forall J s v0 v1, det3 J <> 0 ->
  let v := tr1_reconstruct (tr_inverse_Jacobian_matrix (ct_inverse_Jacobian_matrix J) s) s v0 v1 in
  dot v (col J (first s)) = v0 /\ dot v (col J (second s)) = v1 /\ dot v (col J (across s)) = 0.
Proof.
  intros J s v0 v1 H v. unfold v. rewrite tr1_lin, !dot_lin, !rows_cols by exact H.
  destruct s; cbn [first second across delta]; repeat split; ring.
Qed.

(* the row across is a multiple of the normal *)
Lemma cross_row : forall J s, det3 J <> 0 -> exists k, k <> 0 /\
  cross (col J (first s)) (col J (second s)) = scal k (vrow (ct_inverse_Jacobian_matrix J) (across s)).
Proof.
  intros J s H. exists (match s with tW | tE => - det3 J | _ => det3 J end).
  split; [destruct s; lra|]. mats. cbn [det3] in H. 
  destruct s; unfold col, ent, vrow; cbn; f_equal; [f_equal| |f_equal| |f_equal| |f_equal| |f_equal| |f_equal|]; field;
    intro Z; apply H; rewrite <- Z; ring.
Qed.

Ltac bc J K a b c d M M' :=
  split; intros (Z1 & Z2); rewrite ?Z1, ?Z2 in *; split;
  first [apply (fun q => Rmult_eq_reg_r _ _ _ q M); lra | apply (fun q => Rmult_eq_reg_r _ _ _ q M'); lra].

Lemma tr1_normal_iff : forall J s, det3 J <> 0 ->
  ((forall v0 v1, dot (tr1_reconstruct (tr_inverse_Jacobian_matrix (ct_inverse_Jacobian_matrix J) s) s v0 v1)
                      (cross (col J (first s)) (col J (second s))) = 0) <-> ortho J s).
Proof.
  intros J s H. destruct (cross_row J s H) as (k & N & ->).
  set (K := ct_inverse_Jacobian_matrix J).
  assert (X : (forall v0 v1, dot (tr1_reconstruct (tr_inverse_Jacobian_matrix K s) s v0 v1) (scal k (vrow K (across s))) = 0)
    <-> (dot (vrow K (first s)) (vrow K (across s)) = 0 /\ dot (vrow K (second s)) (vrow K (across s)) = 0)).
  { split.
    - intro Q. split.
      + pose proof (Q 1 0) as E. rewrite dot_comm, dot_scal, dot_comm, tr1_lin, dot_lin in E.
        apply (Rmult_eq_reg_l k); [lra|exact N].
      + pose proof (Q 0 1) as E. rewrite dot_comm, dot_scal, dot_comm, tr1_lin, dot_lin in E.
        apply (Rmult_eq_reg_l k); [lra|exact N].
    - intros (Q1 & Q2) v0 v1. rewrite dot_comm, dot_scal, dot_comm, tr1_lin, dot_lin, Q1, Q2. ring. }
  etransitivity; [exact X|]. clear X.
  pose proof (row_nonzero J (across s) H) as M. pose proof (col_nonzero J (across s) H) as M'.
  nine dots_ok H. nine dots_ok' H. unfold ortho. cbv zeta in *. fold K in M.
  assert (K = ct_inverse_Jacobian_matrix J) as EK by reflexivity. rewrite <- EK in *. clearbody K.
  destruct s; cbn [across first second delta] in *; canon J K;
    [bc J K cX cY cX cZ M M'|bc J K cX cY cX cZ M M'|bc J K cX cY cY cZ M M'|bc J K cX cY cY cZ M M'
    |bc J K cX cZ cY cZ M M'|bc J K cX cZ cY cZ M M'].
Qed.

Lemma ct_det_scale : forall m e xi eta sg, det3 (ct_Jacobian_matrix m false e xi eta sg) =
  det3 (m (to_ref e cX xi) (to_ref e cY eta) (to_ref e cZ sg)) *
  (get (e_d e) cX * get (e_d e) cY * get (e_d e) cZ / 8).
Proof.
  intros m e xi eta sg. unfold ct_Jacobian_matrix. set (M := m _ _ _). clearbody M.
  destruct (e_d e) as [[x y] z]. mats. cbn. field.
Qed.

Lemma shared_tangents : forall m e e' s a b, upper s = true -> behind e e' (across s) ->
  match full_ep s a b, full_ep (opposite s) a b with
  | (x, y, z), (x', y', z') =>
      col (ct_Jacobian_matrix m false e x y z) (first s) = col (ct_Jacobian_matrix m false e' x' y' z') (first s) /\
      col (ct_Jacobian_matrix m false e x y z) (second s) = col (ct_Jacobian_matrix m false e' x' y' z') (second s)
  end.
Proof.
  intros m e e' s a b U B.
  destruct (full_ep s a b) as [[x y] z] eqn:E. destruct (full_ep (opposite s) a b) as [[x' y'] z'] eqn:E'.
  assert (T : to_ref e cX x = to_ref e' cX x' /\ to_ref e cY y = to_ref e' cY y' /\ to_ref e cZ z = to_ref e' cZ z').
  { destruct s; cbn [upper] in U; try discriminate; cbn [opposite full_ep across] in *;
      injection E as <- <- <-; injection E' as <- <- <-;
      repeat split; eapply behind_ref; try exact B; try congruence; intros; auto. }
  destruct T as (T1 & T2 & T3). unfold ct_Jacobian_matrix. rewrite T1, T2, T3.
  set (M := m _ _ _). clearbody M. clear T1 T2 T3 E E'.
  destruct s; cbn [upper] in U; try discriminate; cbn [across first second] in *;
    pose proof (proj2 (B cX)) as B0; pose proof (proj2 (B cY)) as B1; pose proof (proj2 (B cZ)) as B2;
    clear B; destruct e as [oe [[d0 d1] d2]]; destruct e' as [oe' [[d0' d1'] d2']]; cbn [e_d get] in *;
    mats; unfold col, ent; cbn [mrow row_times get];
    rewrite ?B0 by discriminate; rewrite ?B1 by discriminate; rewrite ?B2 by discriminate; split; reflexivity.
Qed.

Lemma tr1_mass : forall J s v0 v1 w0 w1,
  let K := tr_inverse_Jacobian_matrix (ct_inverse_Jacobian_matrix J) s in
  match tr1_weights (tr_Jacobian_matrix J s) K s false with
  | (m00, m01, m11) =>
      m00 * (v0 * w0) + m01 * (v0 * w1 + v1 * w0) + m11 * (v1 * w1) =
      sqrt (dot (cross (col J (first s)) (col J (second s))) (cross (col J (first s)) (col J (second s)))) *
      dot (tr1_reconstruct K s v0 v1) (tr1_reconstruct K s w0 w1)
  end.
Proof.
  intros J s v0 v1 w0 w1 K. unfold tr1_weights. rewrite tr_metric_cross. set (q := sqrt _). clearbody q.
  unfold K. set (L := ct_inverse_Jacobian_matrix J). clearbody L. clear K.
  rewrite tr_inverse_metric_dots, !tr1_lin, tr_rows. mats.
  destruct s; cbn [first second vrow mrow]; unfold dot, csum; cbn; ring.
Qed.

(* with the column across orthogonal, the weights are the area times the
   inverse of the metric of the side *)
Lemma tr1_weights_ortho : forall J s, det3 J <> 0 -> ortho J s ->
  let t := col J (first s) in let t' := col J (second s) in
  match tr1_weights (tr_Jacobian_matrix J s) (tr_inverse_Jacobian_matrix (ct_inverse_Jacobian_matrix J) s) s false with
  | (m00, m01, m11) =>
      let area := sqrt (dot (cross t t') (cross t t')) in
      m00 * dot t t + m01 * dot t t' = area /\ m00 * dot t t' + m01 * dot t' t' = 0 /\
      m01 * dot t t + m11 * dot t t' = 0 /\ m01 * dot t t' + m11 * dot t' t' = area
  end.
Proof.
  intros J s H O t t'. pose proof (proj2 (tr_inverse_metric_iff J s H) O) as I2. revert I2.
  unfold tr1_weights. rewrite tr_metric_cross. fold t t'. set (q := sqrt _). clearbody q.
  rewrite tr_metric_dots, tr_inverse_metric_dots, tr_cols, tr_rows.
  set (K := ct_inverse_Jacobian_matrix J). clearbody K. unfold t, t'.
  destruct s; cbn [first second inverse2]; canon J K; intros (A & B & C & D); cbv zeta;
    repeat split;
    match goal with |- _ = ?x =>
      first [transitivity (q * 1); [first [rewrite <- A; ring|rewrite <- D; ring]|ring]
            |transitivity (q * 0); [first [rewrite <- B; ring|rewrite <- C; ring]|ring]] end.
Qed.

Lemma tr1_weights_diagonal : forall J s, det3 J <> 0 -> ortho J s -> dot (col J (first s)) (col J (second s)) = 0 ->
  let K := tr_inverse_Jacobian_matrix (ct_inverse_Jacobian_matrix J) s in
  tr1_weights (tr_Jacobian_matrix J s) K s true = tr1_weights (tr_Jacobian_matrix J s) K s false.
Proof.
  intros J s H O Z K. pose proof (tr1_weights_ortho J s H O) as W. cbv zeta in W. fold K in W. unfold tr1_weights in *.
  destruct (tr_inverse_metric_matrix K) as [[g00 g01] [g10 g11]]. rewrite Z in W.
  set (q := sqrt (tr_metric _)) in *.
  pose proof (col_nonzero J (first s) H) as N.
  destruct s; destruct W as (_ & _ & W & _);
    match type of W with (?x * _ + _ = _) =>
      assert (E : x = 0) by (apply (fun u => Rmult_eq_reg_r _ _ _ u N); lra); rewrite E end; reflexivity.
Qed.

(* ---- two regions sharing a side, the second one sheared ---- *)
Definition straight (c : coord) (r s t : R) : R := match c with cX => r | cY => s | cZ => t end.
Definition sheared (c : coord) (r s t : R) : R := match c with cX => 1 + r | cY => s + r | cZ => t end.
Definition straight_J : mat3 := ((1, 0, 0), (0, 1, 0), (0, 0, 1)).
Definition sheared_J : mat3 := ((1, 0, 0), (1, 1, 0), (0, 0, 1)).
Definition whole : Elem := mkElem (0, 0, 0) (1, 1, 1).
Lemma straight_jacobian : jacobian_of straight (fun _ _ _ => straight_J).
Proof.
  intros c r s t. destruct c; cbn; (split; [|split]);
    first [apply (lim_ext' (fun y => 0 + 1 * y)); [intro; cbn; ring|apply affine_lim]
          |apply derivable_pt_lim_const].
Qed.
Lemma sheared_jacobian : jacobian_of sheared (fun _ _ _ => sheared_J).
Proof.
  intros c r s t. destruct c; cbn; (split; [|split]);
    first [apply (lim_ext' (fun y => 1 + 1 * y)); [intro; cbn; ring|apply affine_lim]
          |apply (lim_ext' (fun y => s + 1 * y)); [intro; cbn; ring|apply affine_lim]
          |apply (lim_ext' (fun y => r + 1 * y)); [intro; cbn; ring|apply affine_lim]
          |apply (lim_ext' (fun y => 0 + 1 * y)); [intro; cbn; ring|apply affine_lim]
          |apply derivable_pt_lim_const].
Qed.

Lemma shear_differs : forall a b,
  side_value (fun _ _ _ => straight_J) whole tS a b 1 0 = (0, 2, 0) /\
  side_value (fun _ _ _ => sheared_J) whole tN a b 1 0 = (-2, 2, 0) /\
  side_weights (fun _ _ _ => straight_J) whole tS a b = (1, 0, 1) /\
  side_weights (fun _ _ _ => sheared_J) whole tN a b = (2, 0, 1).
Proof.
  assert (Q : forall x y z x' y' z' : R, x = x' -> y = y' -> z = z' -> (x, y, z) = (x', y', z'))
    by (intros; subst; reflexivity).
  intros a b. unfold side_value, side_weights. cbn [full_ep].
  unfold ct_Jacobian_matrix, straight_J, sheared_J, whole. cbn [e_d row_times].
  unfold ct_inverse_Jacobian_matrix, ct_Jacobian.
  cbn [tr_inverse_Jacobian_matrix tr1_reconstruct tr_Jacobian_matrix tr1_weights tr_inverse_metric_matrix].
  split; [apply Q; field|]. split; [apply Q; field|].
  assert (S : sqrt (tr_metric ((0 * (1 / 2), 0 * (1 / 2)), (1 * (1 / 2), 0 * (1 / 2)), (0 * (1 / 2), 1 * (1 / 2)))) = / 4).
  { unfold tr_metric, tr_metric_matrix.
    match goal with |- sqrt ?x = _ => replace x with (/ 4 * / 4) by field end. apply sqrt_square. lra. }
  split; rewrite S; apply Q; field.
Qed.
