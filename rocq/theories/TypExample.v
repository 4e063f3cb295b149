(* A square, a sheared square, a parallelogram, a trapezium and a region that crosses itself. *)
From Coq Require Import Reals Lra.
From Verif Require Import TriModel Edge2Model TsizeModel TsizeProofs TypModel TypSpec TypProofs.
Local Open Scope R_scope.

Definition o0 : point := (0, 0).
Definition px : point := (1, 0).
Lemma o0_px : o0 <> px. Proof. intros E. apply (f_equal fst) in E. cbn in E. lra. Qed.
Lemma orth_when UL DL UR DR : UL <> DL -> UL <> UR -> parallelogram UL DL UR DR -> angle UL DL < 1 / 1000000000000 -> 
  0 < angle_LU (angle UL DL) (angle UL UR) < PI -> Rabs (PI / 2 - angle_LU (angle UL DL) (angle UL UR)) < 15 / 100000000 ->
  classify true UL DL UR DR = rOrthogonal (distance UL DL) (distance UL UR).
Proof.
  intros N1 N2 P A [L0 L1] AE. assert (E1 := dist_of_vec _ _ _ _ P). assert (E2 := dist_of_vec _ _ _ _ (proj1 (para_both UL DL UR DR) P)).
  assert (PP := proj2 (parallel_para UL DL UR DR N1 N2 E1 E2) P). assert (PB := PI2_3_2). unfold classify. cbn [negb].
  destruct (Req_EM_T (distance UL DL) (distance UR DR)); [|contradiction]. destruct (Req_EM_T (distance UL UR) (distance DL DR)); [|contradiction]. rewrite PP.
  destruct (Rlt_dec (angle UL DL) (2 * PI)); [|lra]. destruct (Rlt_dec 0 _); [|contradiction]. destruct (Rlt_dec _ PI); [|contradiction].
  unfold almost_equal. destruct (Rlt_dec (Rabs _) _); [|contradiction]. destruct (Rlt_dec (angle UL DL) _); [reflexivity|contradiction].
Qed.
Lemma dist_at x y l : 0 <= l -> x * x + y * y = l * l -> distance o0 (x, y) = l.
Proof. intros L E. unfold distance, o0. cbn [fst snd]. replace ((0 - x) ^ 2 + (0 - y) ^ 2) with (Rsqr l) by (unfold Rsqr; lra). apply sqrt_Rsqr, L. Qed.
Lemma angle_at x y l t : 0 < l -> x = l * cos t -> y = l * sin t -> 0 <= t < 2 * PI -> angle o0 (x, y) = t.
Proof.
  intros L X Y T. assert (Z : sin t * sin t + cos t * cos t = 1) by apply (sin2_cos2 t).
  assert (D : distance o0 (x, y) = l). { apply dist_at; [lra|]. rewrite X, Y. transitivity (l * l * (sin t * sin t + cos t * cos t)); [ring|rewrite Z; ring]. }
  assert (N : o0 <> (x, y)) by (apply dist_pos_ne; lra). destruct (angle_vec _ _ N) as [V B]. rewrite D in V. unfold vec, o0, times2 in V. cbn [fst snd] in V. injection V as V1 V2. fold o0 in V1, V2.
  apply same_angle; [exact B|exact T| |]; apply (Rmult_eq_reg_l l); lra.
Qed.
Definition eps : R := 1 / 10000000.
Definition shear : point := (sin eps, cos eps).
Definition shear2 : point := (1 + sin eps, cos eps).
Lemma eps_sin : 0 < sin eps. Proof. assert (PB := PI2_3_2). apply sin_gt_0; unfold eps; lra. Qed.
Lemma sheared : o0 <> shear /\ classify true o0 px shear shear2 = rOrthogonal 1 1 /\ inner (vec o0 px) (vec o0 shear) <> 0.
Proof.
  assert (PB := PI2_3_2). assert (ES := eps_sin). assert (N : o0 <> shear) by (intros E; apply (f_equal fst) in E; unfold o0, shear in E; cbn [fst] in E; lra). split; [exact N|].
  assert (A1 : angle o0 px = 0) by (apply (angle_at 1 0 1 0); rewrite ?cos_0, ?sin_0; lra).
  assert (A2 : angle o0 shear = PI / 2 - eps) by (apply (angle_at _ _ 1); rewrite ?cos_shift, ?sin_shift; unfold eps; lra).
  split.
  - rewrite orth_when; [|exact o0_px|exact N| | | |].
    + f_equal; [apply dist_at; lra|]. apply dist_at; [lra|]. assert (Z := sin2_cos2 eps). unfold Rsqr in Z. lra.
    + unfold parallelogram, vec, o0, px, shear, shear2. cbn [fst snd]. f_equal; ring.
    + rewrite A1. lra.
    + rewrite A1, A2. unfold angle_LU, eps. destruct (Rlt_dec _ 0); lra.
    + rewrite A1, A2. unfold angle_LU. destruct (Rlt_dec _ 0) as [X|X]; [unfold eps in X; lra|]. replace (PI / 2 - (PI / 2 - eps - 0)) with eps by ring. unfold eps. rewrite Rabs_right; lra.
  - unfold inner, vec, o0, px, shear. cbn [fst snd]. lra.
Qed.
Definition py : point := (0, 1).
Definition pxy : point := (1, 1).
Lemma square : o0 <> py /\ classify true o0 px py pxy = rOrthogonal 1 1.
Proof.
  assert (N : o0 <> py) by (intros E; apply (f_equal snd) in E; cbn in E; lra). split; [exact N|]. destruct (classify_ok o0 px py pxy o0_px N) as (_ & _ & _ & _ & C).
  rewrite C; unfold parallelogram, vec, o0, px, py, pxy; cbn [fst snd]; try lra; [f_equal; ring|f_equal; ring].
Qed.
Theorem orthogonal_refuted : ~ (forall UL DL UR DR l u, UL <> DL -> UL <> UR -> classify true UL DL UR DR = rOrthogonal l u -> inner (vec UL DL) (vec UL UR) = 0).
Proof. intros H. destruct sheared as (N & C & I). exact (I (H _ _ _ _ _ _ o0_px N C)). Qed.
Theorem same_orthogonal_refuted : ~ (forall UL DL UR DR UL' DL' UR' DR' l u, UL <> DL -> UL <> UR -> UL' <> DL' -> UL' <> UR' ->
  classify true UL DL UR DR = rOrthogonal l u -> classify true UL' DL' UR' DR' = rOrthogonal l u -> vec UL DL = vec UL' DL' /\ vec UL UR = vec UL' UR').
Proof.
  intros H. destruct sheared as (N & C & I). destruct square as (N' & C'). destruct (H _ _ _ _ _ _ _ _ _ _ o0_px N o0_px N' C C') as [_ E]. apply I. rewrite E. unfold inner, vec, o0, px, py. cbn [fst snd]. ring.
Qed.
(* a parallelogram that is not a rectangle *)
Lemma slanted : o0 <> (1, 1) /\ exists a l t u, classify true o0 px (1, 1) (2, 1) = rParallel a l t u.
Proof.
  assert (N : o0 <> (1, 1)) by (intros E; apply (f_equal fst) in E; cbn in E; lra). split; [exact N|]. destruct (classify_ok o0 px (1, 1) (2, 1) o0_px N) as (C1 & C2 & C3 & _).
  assert (P : parallelogram o0 px (1, 1) (2, 1)) by (unfold parallelogram, vec, o0, px; cbn [fst snd]; f_equal; ring).
  destruct (classify true o0 px (1, 1) (2, 1)) as [| |l u|a l t u]; [exfalso..|eauto].
  - destruct (proj1 C2 eq_refl) as [_ X]. apply X. split; [exact P|]. unfold cross, vec, o0, px. cbn [fst snd]. lra.
  - apply (proj1 C1 eq_refl). exact (para_lengths _ _ _ _ P).
  - destruct (C3 _ _ eq_refl) as (_ & _ & L & U & I & _).
    assert (L1 : l = 1) by (rewrite L, norm_dist; apply (dist_at 1 0); lra).
    assert (U1 : u * u = 2) by (rewrite U; unfold norm; rewrite sqrt_sqrt; unfold inner, vec, o0; cbn [fst snd]; lra).
    assert (U2 : u < 2). { destruct (Rlt_dec u 2) as [X|X]; [exact X|]. exfalso. assert (X2 : 2 <= u) by lra. assert (X4 : 2 * 2 <= u * u) by (apply Rmult_le_compat; lra). lra. }
    rewrite L1 in I. unfold inner, vec, o0, px in I. cbn [fst snd] in I. replace ((1 - 0) * (1 - 0) + (0 - 0) * (1 - 0)) with 1 in I by ring. rewrite Rabs_R1 in I. lra.
Qed.
(* sides of equal lengths that cross: the constructor raises *)
Lemma crossed : o0 <> (0, 1) /\ classify true o0 (1, 1) (0, 1) (1, 0) = rRaise /\ o0 <> (1, 1).
Proof.
  assert (N1 : o0 <> (0, 1)) by (intros E; apply (f_equal snd) in E; cbn in E; lra). assert (N2 : o0 <> (1, 1)) by (intros E; apply (f_equal snd) in E; cbn in E; lra).
  split; [exact N1|]. split; [|exact N2]. apply (classify_ok o0 (1, 1) (0, 1) (1, 0) N2 N1). split.
  - unfold norm, inner, vec, o0. cbn [fst snd]. split; f_equal; ring.
  - intros [P _]. unfold parallelogram, vec, o0 in P. cbn [fst snd] in P. injection P. lra.
Qed.
Lemma square_split : split_by_diagonal o0 px py pxy /\ 0 < cross (vec o0 px) (vec o0 py).
Proof. unfold split_by_diagonal, cross, vec, o0, px, py, pxy. cbn [fst snd]. lra. Qed.
Lemma slanted_element : exists a l t u, classify_element (classify true o0 px (1, 1) (2, 1)) (1 / 2) (1 / 3) = rParallel a l t u.
Proof. destruct slanted as (_ & a & l & t & u & ->). cbn [classify_element]. eauto. Qed.
