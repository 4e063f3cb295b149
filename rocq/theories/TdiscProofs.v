(* The coordinate transformation of a triangle. *)
From Coq Require Import Reals List Lra ZArith.
From Verif Require Import CtModel CtSpec DiscModel Disc2Model Disc2Spec Disc2Proofs2 TriModel TriSpec TdiscModel TdiscSpec.
From Verif Require TransModel.
Import ListNotations.
Open Scope R_scope.

Lemma tct_x a b c r s : fst (tct_mapping a b c) r s = fst a + (s + 1) / 2 * (fst c - fst a + (r + 1) / 2 * (fst b - fst c)).
Proof.
  unfold tct_mapping, TransModel.map_x, TransModel.g1_x0, TransModel.g1_x1, TransModel.g3_x0, TransModel.g3_x1, tri_T, line.
  cbn [fst snd TransModel.cx TransModel.cy TransModel.g0 TransModel.g1 TransModel.g2 TransModel.g3]. field.
Qed.
Lemma tct_y a b c r s : snd (tct_mapping a b c) r s = snd a + (s + 1) / 2 * (snd c - snd a + (r + 1) / 2 * (snd b - snd c)).
Proof.
  unfold tct_mapping, TransModel.map_y, TransModel.g1_y0, TransModel.g1_y1, TransModel.g3_y0, TransModel.g3_y1, tri_T, line.
  cbn [fst snd TransModel.cx TransModel.cy TransModel.g0 TransModel.g1 TransModel.g2 TransModel.g3]. field.
Qed.
Lemma tct_J a b c r s : tct_Jacobian_matrix a b c r s =
  (((s + 1) / 4 * (fst b - fst c), 1 / 2 * (fst c - fst a + (r + 1) / 2 * (fst b - fst c))),
   ((s + 1) / 4 * (snd b - snd c), 1 / 2 * (snd c - snd a + (r + 1) / 2 * (snd b - snd c)))).
Proof.
  unfold tct_Jacobian_matrix, TransModel.dx_dr, TransModel.dx_ds, TransModel.dy_dr, TransModel.dy_ds, TransModel.g1_x0, TransModel.g1_x1, TransModel.g3_x0,
    TransModel.g3_x1, TransModel.g1_y0, TransModel.g1_y1, TransModel.g3_y0, TransModel.g3_y1, tri_T, line, dline.
  cbn [fst snd TransModel.cx TransModel.cy TransModel.g0 TransModel.g1 TransModel.g2 TransModel.g3 TransModel.d0 TransModel.d1 TransModel.d2 TransModel.d3].
  f_equal; f_equal; field.
Qed.
(* the sides: the collapsed one, and three straight ones *)
Lemma tct_sides a b c t :
  image (tct_mapping a b c) t (-1) = a /\
  image (tct_mapping a b c) 1 t = between a b ((t + 1) / 2) /\
  image (tct_mapping a b c) (-1) t = between a c ((t + 1) / 2) /\
  image (tct_mapping a b c) t 1 = between c b ((t + 1) / 2).
Proof.
  unfold image, between. rewrite !tct_x, !tct_y. destruct a as [a0 a1]. cbn [fst snd]. repeat split; f_equal; field.
Qed.
Lemma tct_in a b c r s : 0 < area2 a b c -> in_open r -> in_open s -> in_tri a b c (image (tct_mapping a b c) r s).
Proof.
  intros A [R0 R1] [S0 S1]. unfold in_tri, image. rewrite tct_x, tct_y. unfold area2 in *. cbn [fst snd].
  set (D := (fst b - fst a) * (snd c - snd a) - (snd b - snd a) * (fst c - fst a)) in *.
  split; [|split].
  - match goal with |- 0 < ?x => replace x with ((s + 1) / 2 * ((1 - r) / 2) * D) by (unfold D; field) end.
    apply Rmult_lt_0_compat; [apply Rmult_lt_0_compat; lra|exact A].
  - match goal with |- 0 < ?x => replace x with ((1 - s) / 2 * D) by (unfold D; field) end.
    apply Rmult_lt_0_compat; [lra|exact A].
  - match goal with |- 0 < ?x => replace x with ((s + 1) / 2 * ((r + 1) / 2) * D) by (unfold D; field) end.
    apply Rmult_lt_0_compat; [apply Rmult_lt_0_compat; lra|exact A].
Qed.
Lemma tct_onto a b c q : in_tri a b c q -> exists r s, in_open r /\ in_open s /\ image (tct_mapping a b c) r s = q.
Proof.
  intros (A1 & A2 & A3). unfold image. 
  assert (E : area2 a b q + area2 b c q + area2 c a q = area2 a b c) by (unfold area2; ring).
  set (D := area2 a b c) in *. set (u := area2 a b q) in *. set (w := area2 c a q) in *.
  assert (HD : 0 < D) by lra. assert (HW : 0 < u + w) by lra.
  exists (2 * (w / (u + w)) - 1), (2 * ((u + w) / D) - 1).
  assert (I : forall x y, 0 < x -> x < y -> 0 < x / y < 1).
  { intros x y X Y. split; [apply Rdiv_lt_0_compat; lra|]. apply Rmult_lt_reg_r with y; [lra|]. unfold Rdiv. rewrite Rmult_assoc, Rinv_l by lra. lra. }
  pose proof (I w (u + w)) as I1. pose proof (I (u + w) D) as I2. unfold in_open.
  split; [lra|]. split; [lra|]. rewrite tct_x, tct_y. destruct q as [q0 q1]. cbn [fst snd].
  replace ((2 * (w / (u + w)) - 1 + 1) / 2) with (w / (u + w)) by (field; lra).
  replace ((2 * ((u + w) / D) - 1 + 1) / 2) with ((u + w) / D) by (field; lra).
  assert (G : forall x y z, x + (u + w) / D * (z - x + w / (u + w) * (y - z)) = (D * x + u * (z - x) + w * (y - x)) / D) by (intros; field; lra).
  rewrite !G. f_equal; apply Rmult_eq_reg_r with D; try lra; unfold Rdiv; rewrite Rmult_assoc, Rinv_l by lra; unfold u, w, D, area2; cbn [fst snd]; ring.
Qed.
Lemma tct_inj a b c r s r' s' : area2 a b c <> 0 -> -1 < s -> -1 < s' ->
  image (tct_mapping a b c) r s = image (tct_mapping a b c) r' s' -> r = r' /\ s = s'.
Proof.
  intros A S0 S1 E. pose proof (f_equal fst E) as E0. pose proof (f_equal snd E) as E1. unfold image in E0, E1. cbn [fst snd] in E0, E1. rewrite !tct_x in E0. rewrite !tct_y in E1.
  set (D := area2 a b c) in *.
  assert (Q : (s + 1) * ((1 - r) * D) = (s' + 1) * ((1 - r') * D) /\ (s + 1) * ((r + 1) * D) = (s' + 1) * ((r' + 1) * D)).
  { unfold D, area2. split.
    - transitivity (4 * ((fst b - fst a) * (((s + 1) / 2 * (snd c - snd a + (r + 1) / 2 * (snd b - snd c)))) -
        (snd b - snd a) * ((s + 1) / 2 * (fst c - fst a + (r + 1) / 2 * (fst b - fst c))))); [field|].
      replace ((s + 1) / 2 * (snd c - snd a + (r + 1) / 2 * (snd b - snd c))) with ((s' + 1) / 2 * (snd c - snd a + (r' + 1) / 2 * (snd b - snd c))) by lra.
      replace ((s + 1) / 2 * (fst c - fst a + (r + 1) / 2 * (fst b - fst c))) with ((s' + 1) / 2 * (fst c - fst a + (r' + 1) / 2 * (fst b - fst c))) by lra.
      field.
    - transitivity (4 * (((s + 1) / 2 * (fst c - fst a + (r + 1) / 2 * (fst b - fst c))) * (snd c - snd a) -
        ((s + 1) / 2 * (snd c - snd a + (r + 1) / 2 * (snd b - snd c))) * (fst c - fst a))); [field|].
      replace ((s + 1) / 2 * (snd c - snd a + (r + 1) / 2 * (snd b - snd c))) with ((s' + 1) / 2 * (snd c - snd a + (r' + 1) / 2 * (snd b - snd c))) by lra.
      replace ((s + 1) / 2 * (fst c - fst a + (r + 1) / 2 * (fst b - fst c))) with ((s' + 1) / 2 * (fst c - fst a + (r' + 1) / 2 * (fst b - fst c))) by lra.
      field. }
  destruct Q as [Q1 Q2].
  assert (ES : s = s').
  { assert (2 * D * (s - s') = 0) as Z by lra. apply Rmult_integral in Z. destruct Z as [Z|Z]; [|lra].
    apply Rmult_integral in Z. destruct Z; [lra|contradiction]. }
  subst s'. split; [|reflexivity].
  assert ((s + 1) * D * (r - r') = 0) as Z by lra. apply Rmult_integral in Z. destruct Z as [Z|Z]; [|lra].
  apply Rmult_integral in Z. destruct Z; [lra|contradiction].
Qed.
Lemma tct_det a b c r s : ct2_Jacobian (tct_Jacobian_matrix a b c r s) = (s + 1) / 8 * area2 a b c.
Proof. rewrite tct_J. unfold ct2_Jacobian, area2. field. Qed.
Lemma tct_det_pos a b c r s : 0 < area2 a b c -> -1 < s -> 0 < ct2_Jacobian (tct_Jacobian_matrix a b c r s).
Proof. intros A H. rewrite tct_det. apply Rmult_lt_0_compat; lra. Qed.
(* on the collapsed side the matrix has no inverse *)
Lemma tct_singular a b c r m : ~ inverse2 (tct_Jacobian_matrix a b c r (-1)) m.
Proof.
  rewrite tct_J. destruct m as [[m00 m01] [m10 m11]]. unfold inverse2. replace ((-1 + 1) / 4) with 0 by field. rewrite !Rmult_0_l.
  set (x := 1 / 2 * _). set (y := 1 / 2 * _). intros (H0 & H1 & H2 & H3).
  assert (Hx : x * m10 = 1) by lra. assert (Hy : y * m11 = 1) by lra. assert (Hz : x * m11 = 0) by lra.
  apply Rmult_integral in Hz. destruct Hz as [Hz|Hz]; rewrite Hz in *; lra.
Qed.
Lemma lin_lim (f : R -> R) k m x : (forall t, f t = m + k * t) -> derivable_pt_lim f x k.
Proof.
  intros E eps He. exists (mkposreal 1 Rlt_0_1). intros h Hh _. rewrite !E. replace ((m + k * (x + h) - (m + k * x)) / h - k) with 0 by (field; exact Hh).
  rewrite Rabs_R0. exact He.
Qed.
Lemma tct_jacobian a b c : jacobian2_of (tct_mapping a b c) (tct_Jacobian_matrix a b c).
Proof.
  intros x y. rewrite tct_J. cbn [fst snd]. repeat split.
  - eapply lin_lim with (m := fst a + (y + 1) / 2 * (fst c - fst a + 1 / 2 * (fst b - fst c))). intros t. rewrite tct_x. field.
  - eapply lin_lim with (m := fst a + 1 / 2 * (fst c - fst a + (x + 1) / 2 * (fst b - fst c))). intros t. rewrite tct_x. field.
  - eapply lin_lim with (m := snd a + (y + 1) / 2 * (snd c - snd a + 1 / 2 * (snd b - snd c))). intros t. rewrite tct_y. field.
  - eapply lin_lim with (m := snd a + 1 / 2 * (snd c - snd a + (x + 1) / 2 * (snd b - snd c))). intros t. rewrite tct_y. field.
Qed.
Lemma tct_mixed a b c : mixed (tct_Jacobian_matrix a b c) (fun _ _ => (1 / 4 * (fst b - fst c), 1 / 4 * (snd b - snd c))).
Proof.
  intros x y. cbn [fst snd]. repeat split.
  - eapply lin_lim with (m := 1 / 4 * (fst b - fst c)). intros t. rewrite tct_J. cbn [fst snd]. field.
  - eapply lin_lim with (m := 1 / 2 * (fst c - fst a + 1 / 2 * (fst b - fst c))). intros t. rewrite tct_J. cbn [fst snd]. field.
  - eapply lin_lim with (m := 1 / 4 * (snd b - snd c)). intros t. rewrite tct_J. cbn [fst snd]. field.
  - eapply lin_lim with (m := 1 / 2 * (snd c - snd a + 1 / 2 * (snd b - snd c))). intros t. rewrite tct_J. cbn [fst snd]. field.
Qed.
Lemma tct_inverse a b c r s : 0 < area2 a b c -> -1 < s -> let m := tct_Jacobian_matrix a b c r s in
  (inverse2 m (ct2_inverse m) /\ inverse2 (ct2_inverse m) m) /\ ct2_inverse_Jacobian (ct2_inverse m) * ct2_Jacobian m = 1 /\
  inverse2 (ct2_metric_matrix m) (ct2_inverse_metric_matrix (ct2_inverse m)) /\ inverse2 (ct2_inverse_metric_matrix (ct2_inverse m)) (ct2_metric_matrix m).
Proof.
  intros A Hs m. assert (N : ct2_Jacobian m <> 0) by (apply Rgt_not_eq, tct_det_pos; assumption).
  split; [apply ct2_inverse_ok, N|split; [apply ct2_inverse_det, N|apply ct2_inverse_gram, N]].
Qed.
