(* Directions and types of regions. *)
From Coq Require Import Reals Lra Psatz.
From Verif Require Import TriModel Edge2Model TfiSpec Edge2Proofs TsizeModel TsizeProofs TypModel TypSpec.
Local Open Scope R_scope.

Lemma norm_dist p q : norm (vec p q) = distance p q.
Proof. unfold norm, inner, vec, distance. cbn [fst snd]. f_equal. ring. Qed.
Lemma angle_vec p q : p <> q -> vec p q = times2 (distance p q) (cos (angle p q), sin (angle p q)) /\ 0 <= angle p q < 2 * PI.
Proof.
  intros N. assert (G := dist_gt _ _ N). assert (Q := dist_sq p q).
  assert (D : 0 < dist2 p (fst q) (snd q)). { assert (0 < distance p q * distance p q) by (apply Rmult_lt_0_compat; exact G). unfold dist2. rewrite Q in H. lra. }
  destruct (angle_ok p q D) as (C & S & B). split; [|exact B].
  assert (E : hypot (fst q - fst p) (snd q - snd p) = distance p q) by (unfold hypot, distance; f_equal; ring). rewrite E in C, S. unfold vec, times2. cbn [fst snd]. rewrite C, S. reflexivity.
Qed.
Lemma same_angle x y : 0 <= x < 2 * PI -> 0 <= y < 2 * PI -> cos x = cos y -> sin x = sin y -> x = y.
Proof.
  intros X Y C S. assert (K : cos (x - y) = 1). { rewrite cos_minus, C, S. assert (Z := sin2_cos2 y). unfold Rsqr in Z. lra. }
  assert (P := PI_RGT_0). assert (H : sin ((x - y) / 2) = 0).
  { assert (Z := cos_2a_sin ((x - y) / 2)). replace (2 * ((x - y) / 2)) with (x - y) in Z by field. rewrite K in Z. apply Rsqr_0_uniq. unfold Rsqr. lra. }
  destruct (Rtotal_order x y) as [L|[E|L]]; [|exact E|]; exfalso.
  - assert (Z := sin_gt_0 ((y - x) / 2) ltac:(lra) ltac:(lra)). replace ((y - x) / 2) with (- ((x - y) / 2)) in Z by field. rewrite sin_neg in Z. lra.
  - assert (Z := sin_gt_0 ((x - y) / 2) ltac:(lra) ltac:(lra)). lra.
Qed.
Theorem parallel_ok a1 a2 b1 b2 : a1 <> a2 -> b1 <> b2 -> (if_two_lines_parallel a1 a2 b1 b2 = true <-> exists k, 0 < k /\ vec b1 b2 = times2 k (vec a1 a2)).
Proof.
  intros Na Nb. destruct (angle_vec _ _ Na) as [Va Ba]. destruct (angle_vec _ _ Nb) as [Vb Bb]. assert (Ga := dist_gt _ _ Na). assert (Gb := dist_gt _ _ Nb).
  unfold if_two_lines_parallel. destruct (Req_EM_T (angle a1 a2) (angle b1 b2)) as [E|E].
  - split; [intros _|reflexivity]. exists (distance b1 b2 / distance a1 a2). split; [apply Rdiv_lt_0_compat; assumption|]. rewrite Va, Vb, E. unfold times2. cbn [fst snd]. f_equal; field; lra.
  - split; [discriminate|]. intros (k & Hk & V). exfalso. apply E. rewrite Va, Vb in V. unfold times2 in V. cbn [fst snd] in V. injection V as V1 V2.
    set (ca := cos (angle a1 a2)) in *. set (sa := sin (angle a1 a2)) in *. set (cb := cos (angle b1 b2)) in *. set (sb := sin (angle b1 b2)) in *. set (da := distance a1 a2) in *. set (db := distance b1 b2) in *.
    assert (Z1 : sa * sa + ca * ca = 1) by (apply (sin2_cos2 (angle a1 a2))). assert (Z2 : sb * sb + cb * cb = 1) by (apply (sin2_cos2 (angle b1 b2))).
    assert (M : (db - k * da) * (db + k * da) = 0).
    { transitivity (db * db * (sb * sb + cb * cb) - (k * da) * (k * da) * (sa * sa + ca * ca)); [rewrite Z1, Z2; ring|].
      transitivity ((db * cb) * (db * cb) + (db * sb) * (db * sb) - (k * (da * ca)) * (k * (da * ca)) - (k * (da * sa)) * (k * (da * sa))); [ring|]. rewrite V1, V2. ring. }
    assert (Pk : 0 < k * da) by (apply Rmult_lt_0_compat; assumption). apply Rmult_integral in M as [M|M]; [|lra].
    apply same_angle; [exact Ba|exact Bb| |]; apply (Rmult_eq_reg_l db); try lra; fold ca cb sa sb; [rewrite V1|rewrite V2]; replace db with (k * da) by lra; ring.
Qed.

Section LU.
  Variables p q r : point.
  Hypothesis N1 : p <> q.
  Hypothesis N2 : p <> r.
  Let LU := angle_LU (angle p q) (angle p r).
  Lemma LU_range : 0 <= LU < 2 * PI.
  Proof.
    destruct (angle_vec _ _ N1) as [_ B1]. destruct (angle_vec _ _ N2) as [_ B2]. unfold LU, angle_LU. destruct (Rlt_dec (angle p r) (angle p q)); lra.
  Qed.
  Lemma LU_turn : cos (angle p q + LU) = cos (angle p r) /\ sin (angle p q + LU) = sin (angle p r).
  Proof.
    unfold LU, angle_LU. destruct (Rlt_dec (angle p r) (angle p q)) as [L|L].
    - replace (angle p q + (angle p r + 2 * PI - angle p q)) with (angle p r + 2 * INR 1 * PI) by (cbn; ring). rewrite cos_period, sin_period. auto.
    - replace (angle p q + (angle p r - angle p q)) with (angle p r) by ring. auto.
  Qed.
  Lemma LU_vec : vec p r = times2 (distance p r) (cos (angle p q + LU), sin (angle p q + LU)).
  Proof. destruct LU_turn as [-> ->]. apply (angle_vec _ _ N2). Qed.
  Lemma LU_cross : cross (vec p q) (vec p r) = distance p q * distance p r * sin LU /\ inner (vec p q) (vec p r) = distance p q * distance p r * cos LU.
  Proof.
    destruct (angle_vec _ _ N1) as [V1 _]. rewrite V1, LU_vec. unfold cross, inner, times2. cbn [fst snd]. rewrite cos_plus, sin_plus.
    assert (Z : sin (angle p q) * sin (angle p q) + cos (angle p q) * cos (angle p q) = 1) by apply (sin2_cos2 (angle p q)).
    set (c := cos (angle p q)) in *. set (s := sin (angle p q)) in *. split.
    - transitivity (distance p q * distance p r * sin LU * (s * s + c * c)); [ring|rewrite Z; ring].
    - transitivity (distance p q * distance p r * cos LU * (s * s + c * c)); [ring|rewrite Z; ring].
  Qed.
  Lemma LU_sign : 0 < cross (vec p q) (vec p r) <-> 0 < LU < PI.
  Proof.
    destruct LU_cross as [E _]. rewrite E. assert (K : 0 < distance p q * distance p r) by (apply Rmult_lt_0_compat; apply dist_gt; assumption).
    assert (B := LU_range). split.
    - intros H. assert (S : 0 < sin LU). { destruct (Rlt_dec 0 (sin LU)) as [X|X]; [exact X|]. exfalso. assert (distance p q * distance p r * sin LU <= distance p q * distance p r * 0) by (apply Rmult_le_compat_l; lra). lra. }
      split.
      + destruct B as [[L|L] _]; [exact L|]. rewrite <- L, sin_0 in S. lra.
      + destruct (Rlt_dec LU PI) as [X|X]; [exact X|]. exfalso. assert (Z := sin_le_0 LU ltac:(lra) ltac:(lra)). lra.
    - intros [L U]. apply Rmult_lt_0_compat; [exact K|]. apply sin_gt_0; assumption.
  Qed.
End LU.

Lemma vec_zero p q : vec p q = (0, 0) -> p = q.
Proof. destruct p, q. unfold vec. cbn [fst snd]. intros H. injection H as X Y. f_equal; lra. Qed.
Lemma dist_of_vec p q r s : vec p q = vec r s -> distance p q = distance r s.
Proof. intros H. rewrite <- !norm_dist, H. reflexivity. Qed.
Lemma scale_one k v : 0 < k -> v <> (0, 0) -> norm (times2 k v) = norm v -> k = 1.
Proof.
  intros K N E. destruct v as [x y]. unfold norm, inner, times2 in E. cbn [fst snd] in E.
  assert (P0 := Rle_0_sqr x). assert (P1 := Rle_0_sqr y). assert (P2 := Rle_0_sqr (k * x)). assert (P3 := Rle_0_sqr (k * y)). unfold Rsqr in *.
  apply sqrt_inj in E; [|lra|lra]. assert (Z : (k - 1) * ((k + 1) * (x * x + y * y)) = 0) by lra. apply Rmult_integral in Z as [Z|Z]; [lra|]. apply Rmult_integral in Z as [Z|Z]; [lra|].
  exfalso. apply N. f_equal; apply Rsqr_0_uniq; unfold Rsqr; lra.
Qed.
Lemma dist_pos_ne p q : 0 < distance p q -> p <> q.
Proof. intros H ->. rewrite dist_zero in H. lra. Qed.

Section Region.
  Variables UL DL UR DR : point.
  Hypothesis N1 : UL <> DL.
  Hypothesis N2 : UL <> UR.
  Lemma para_both : parallelogram UL DL UR DR <-> vec UL UR = vec DL DR.
  Proof. unfold parallelogram, vec. split; intros H; injection H as X Y; f_equal; lra. Qed.
  Lemma parallel_para : distance UL DL = distance UR DR -> distance UL UR = distance DL DR ->
    (andb (if_two_lines_parallel UL DL UR DR) (if_two_lines_parallel UL UR DL DR) = true <-> parallelogram UL DL UR DR).
  Proof.
    intros E1 E2. assert (N3 : UR <> DR) by (apply dist_pos_ne; rewrite <- E1; apply dist_gt, N1). assert (N4 : DL <> DR) by (apply dist_pos_ne; rewrite <- E2; apply dist_gt, N2).
    rewrite Bool.andb_true_iff, !parallel_ok by assumption. split.
    - intros ((k & K & V) & _). assert (k = 1). { apply (scale_one k (vec UL DL) K); [intros Z; apply N1, vec_zero, Z|]. rewrite <- V, !norm_dist. symmetry. exact E1. }
      subst k. unfold parallelogram. rewrite V. unfold times2. rewrite !Rmult_1_l. destruct (vec UL DL); reflexivity.
    - intros P. split; exists 1; (split; [lra|]); unfold times2; rewrite !Rmult_1_l; [rewrite <- P; destruct (vec UL DL); reflexivity|]. apply para_both in P. rewrite <- P. destruct (vec UL UR); reflexivity.
  Qed.
  Definition same_lengths : Prop := norm (vec UL DL) = norm (vec UR DR) /\ norm (vec UL UR) = norm (vec DL DR).
  Lemma para_lengths : parallelogram UL DL UR DR -> same_lengths.
  Proof. intros P. split; [rewrite P; reflexivity|]. apply para_both in P. rewrite P. reflexivity. Qed.
  (* what classify does for sides of the same lengths *)
  Lemma classify_cases : classify true UL DL UR DR =
    match Req_EM_T (norm (vec UL DL)) (norm (vec UR DR)), Req_EM_T (norm (vec UL UR)) (norm (vec DL DR)) with
    | left _, left _ => classify true UL DL UR DR
    | _, _ => rChaos
    end.
  Proof.
    rewrite !norm_dist. unfold classify. cbn [negb]. destruct (Req_EM_T (distance UL DL) (distance UR DR)); [|reflexivity]. destruct (Req_EM_T (distance UL UR) (distance DL DR)); reflexivity.
  Qed.
  Theorem classify_ok :
    (classify true UL DL UR DR = rChaos <-> ~ (norm (vec UL DL) = norm (vec UR DR) /\ norm (vec UL UR) = norm (vec DL DR))) /\
    (classify true UL DL UR DR = rRaise <-> (norm (vec UL DL) = norm (vec UR DR) /\ norm (vec UL UR) = norm (vec DL DR)) /\
       ~ (parallelogram UL DL UR DR /\ 0 < cross (vec UL DL) (vec UL UR))) /\
    (forall l u, classify true UL DL UR DR = rOrthogonal l u -> parallelogram UL DL UR DR /\ 0 < cross (vec UL DL) (vec UL UR) /\
       l = norm (vec UL DL) /\ u = norm (vec UL UR) /\
       Rabs (inner (vec UL DL) (vec UL UR)) <= 15 / 100000000 * (l * u) /\ 0 <= snd (vec UL DL) <= 1 / 1000000000000 * l /\ 0 < fst (vec UL DL)) /\
    (forall a l t u, classify true UL DL UR DR = rParallel a l t u -> parallelogram UL DL UR DR /\ 0 < cross (vec UL DL) (vec UL UR) /\
       vec UL DL = times2 l (cos a, sin a) /\ vec UL UR = times2 u (cos (a + t), sin (a + t)) /\ 0 < l /\ 0 < u /\ 0 <= a < 2 * PI /\ 0 < t < PI) /\
    (parallelogram UL DL UR DR -> 0 < fst (vec UL DL) -> snd (vec UL DL) = 0 -> fst (vec UL UR) = 0 -> 0 < snd (vec UL UR) ->
       classify true UL DL UR DR = rOrthogonal (fst (vec UL DL)) (snd (vec UL UR))).
  Proof.
    rewrite !norm_dist. destruct (angle_vec _ _ N1) as [V1 B1]. assert (PV := PI_RGT_0).
    assert (S := LU_sign UL DL UR N1 N2). assert (RG := LU_range UL DL UR N1 N2). assert (VU := LU_vec UL DL UR N2). assert (CR := LU_cross UL DL UR N1 N2).
    assert (G1 := dist_gt _ _ N1). assert (G2 := dist_gt _ _ N2).
    assert (PL : parallelogram UL DL UR DR -> distance UL DL = distance UR DR /\ distance UL UR = distance DL DR) by (intros P; split; apply dist_of_vec; [exact P|apply para_both, P]).
    assert (PP := parallel_para). unfold classify. cbn [negb]. set (LU := angle_LU (angle UL DL) (angle UL UR)) in *.
    destruct (Req_EM_T (distance UL DL) (distance UR DR)) as [E1|E1]; [destruct (Req_EM_T (distance UL UR) (distance DL DR)) as [E2|E2]|].
    2, 3: (split; [split; [intros _ [X Y]; contradiction|reflexivity]|split; [split; [discriminate|intros [[X Y] _]; contradiction]|split; [discriminate|split; [discriminate|intros P; exfalso; destruct (PL P); contradiction]]]]).
    specialize (PP E1 E2). destruct (if_two_lines_parallel UL DL UR DR && if_two_lines_parallel UL UR DL DR)%bool.
    2: (assert (NP : ~ parallelogram UL DL UR DR) by (intros P; apply PP in P; discriminate); split; [split; [discriminate|intros X; exfalso; apply X; auto]|split; [split; [intros _; split; [auto|intros [P _]; contradiction]|reflexivity]|split; [discriminate|split; [discriminate|intros P; contradiction]]]]).
    assert (P : parallelogram UL DL UR DR) by (apply PP; reflexivity). clear PP.
    destruct (Rlt_dec (angle UL DL) (2 * PI)) as [_|X]; [|lra].
    assert (BAD : ~ (0 < LU < PI) -> (rRaise = rChaos <-> ~ (distance UL DL = distance UR DR /\ distance UL UR = distance DL DR)) /\
      (rRaise = rRaise <-> (distance UL DL = distance UR DR /\ distance UL UR = distance DL DR) /\ ~ (parallelogram UL DL UR DR /\ 0 < cross (vec UL DL) (vec UL UR)))).
    { intros NS. split; [split; [discriminate|intros X; exfalso; apply X; auto]|]. split; [|reflexivity]. intros _. split; [auto|]. intros [_ Q]. apply NS, S, Q. }
    assert (RECT : 0 < fst (vec UL DL) -> snd (vec UL DL) = 0 -> fst (vec UL UR) = 0 -> 0 < snd (vec UL UR) -> 0 < cross (vec UL DL) (vec UL UR) /\ angle UL DL = 0 /\ LU = PI / 2 /\ distance UL DL = fst (vec UL DL) /\ distance UL UR = snd (vec UL UR)).
    { intros F1 F2 F3 F4. assert (CP : 0 < cross (vec UL DL) (vec UL UR)) by (unfold cross; rewrite F2, F3; assert (0 < fst (vec UL DL) * snd (vec UL UR)) by (apply Rmult_lt_0_compat; assumption); lra).
      assert (D1 : distance UL DL = fst (vec UL DL)). { rewrite <- norm_dist. unfold norm, inner. rewrite F2. replace (fst (vec UL DL) * fst (vec UL DL) + 0 * 0) with (Rsqr (fst (vec UL DL))) by (unfold Rsqr; ring). apply sqrt_Rsqr. lra. }
      assert (D2 : distance UL UR = snd (vec UL UR)). { rewrite <- norm_dist. unfold norm, inner. rewrite F3. replace (0 * 0 + snd (vec UL UR) * snd (vec UL UR)) with (Rsqr (snd (vec UL UR))) by (unfold Rsqr; ring). apply sqrt_Rsqr. lra. }
      split; [exact CP|]. split; [|split; [|auto]].
      - apply same_angle; [exact B1|lra| |]; rewrite ?cos_0, ?sin_0; rewrite V1 in F2; apply (f_equal fst) in V1; cbn [times2 fst snd] in V1, F2; rewrite <- D1 in V1.
        + apply (Rmult_eq_reg_l (distance UL DL)); lra.
        + apply (Rmult_eq_reg_l (distance UL DL)); lra.
      - apply S in CP. destruct CR as [_ CI]. unfold inner in CI. rewrite F2, F3 in CI. apply cos_inj; try lra. rewrite cos_PI2. apply (Rmult_eq_reg_l (distance UL DL * distance UL UR)); [lra|]. apply Rmult_integral_contrapositive_currified; lra. }
    destruct (Rlt_dec 0 LU) as [L0|L0].
    2: (destruct (BAD ltac:(lra)) as [X1 X2]; split; [exact X1|]; split; [exact X2|]; split; [discriminate|]; split; [discriminate|]; intros _ F1 F2 F3 F4; exfalso; destruct (RECT F1 F2 F3 F4) as (CP & _); apply S in CP; lra).
    destruct (Rlt_dec LU PI) as [L1|L1].
    2: (destruct (BAD ltac:(lra)) as [X1 X2]; split; [exact X1|]; split; [exact X2|]; split; [discriminate|]; split; [discriminate|]; intros _ F1 F2 F3 F4; exfalso; destruct (RECT F1 F2 F3 F4) as (CP & _); apply S in CP; lra).
    clear BAD. assert (CP : 0 < cross (vec UL DL) (vec UL UR)) by (apply S; lra).
    assert (GOOD : forall t, t <> rChaos -> t <> rRaise -> (t = rChaos <-> ~ (distance UL DL = distance UR DR /\ distance UL UR = distance DL DR)) /\
      (t = rRaise <-> (distance UL DL = distance UR DR /\ distance UL UR = distance DL DR) /\ ~ (parallelogram UL DL UR DR /\ 0 < cross (vec UL DL) (vec UL UR)))).
    { intros t T1 T2. split; split; [contradiction|intros X; exfalso; apply X; auto|contradiction|intros [_ X]; exfalso; apply X; auto]. }
    assert (PAR : forall a l t u, rParallel (angle UL DL) (distance UL DL) LU (distance UL UR) = rParallel a l t u -> parallelogram UL DL UR DR /\ 0 < cross (vec UL DL) (vec UL UR) /\
       vec UL DL = times2 l (cos a, sin a) /\ vec UL UR = times2 u (cos (a + t), sin (a + t)) /\ 0 < l /\ 0 < u /\ 0 <= a < 2 * PI /\ 0 < t < PI).
    { intros a l t u E. injection E as <- <- <- <-. repeat (split; [assumption|]). lra. }
    unfold almost_equal. destruct (Rlt_dec (Rabs (PI / 2 - LU)) (15 / 100000000)) as [AE|AE].
    - destruct (Rlt_dec (angle UL DL) (1 / 1000000000000)) as [AL|AL].
      + destruct (GOOD (rOrthogonal (distance UL DL) (distance UL UR)) ltac:(discriminate) ltac:(discriminate)) as [X1 X2]. split; [exact X1|]. split; [exact X2|]. split; [|split; [discriminate|]].
        * intros l u E. injection E as <- <-. split; [exact P|]. split; [exact CP|]. split; [reflexivity|]. split; [reflexivity|].
          assert (SL : forall x, 0 <= x -> sin x <= x) by (intros x [X|X]; [apply Rlt_le, sin_lt_x, X|rewrite <- X, sin_0; lra]).
          destruct CR as [_ CI]. rewrite CI. split; [|split].
          -- rewrite Rabs_mult, (Rabs_right (distance UL DL * distance UL UR)) by (apply Rle_ge, Rmult_le_pos; lra). rewrite Rmult_comm. apply Rmult_le_compat_r; [apply Rmult_le_pos; lra|].
             rewrite <- (sin_shift LU). apply Rle_trans with (Rabs (PI / 2 - LU)); [|lra]. unfold Rabs at 2. destruct (Rcase_abs (PI / 2 - LU)) as [Y|Y].
             ++ replace (PI / 2 - LU) with (- (- (PI / 2 - LU))) at 1 by ring. rewrite sin_neg, Rabs_Ropp. rewrite Rabs_right; [apply SL; lra|]. apply Rle_ge, sin_ge_0; lra.
             ++ rewrite Rabs_right; [apply SL; lra|]. apply Rle_ge, sin_ge_0; lra.
          -- assert (PB := PI2_3_2). apply (f_equal snd) in V1. cbn [times2 snd fst] in V1. rewrite V1. assert (0 <= sin (angle UL DL)) by (apply sin_ge_0; lra). assert (sin (angle UL DL) <= angle UL DL) by (apply SL; lra).
             split; [apply Rmult_le_pos; lra|]. rewrite Rmult_comm. apply Rmult_le_compat_r; lra.
          -- apply (f_equal fst) in V1. cbn [times2 snd fst] in V1. rewrite V1. apply Rmult_lt_0_compat; [exact G1|]. assert (PB := PI2_3_2). apply cos_gt_0; lra.
        * intros _ F1 F2 F3 F4. destruct (RECT F1 F2 F3 F4) as (_ & _ & _ & -> & ->). reflexivity.
      + destruct (GOOD (rParallel (angle UL DL) (distance UL DL) LU (distance UL UR)) ltac:(discriminate) ltac:(discriminate)) as [X1 X2]. split; [exact X1|]. split; [exact X2|]. split; [discriminate|]. split; [exact PAR|].
        intros _ F1 F2 F3 F4. exfalso. destruct (RECT F1 F2 F3 F4) as (_ & Z & _). lra.
    - destruct (GOOD (rParallel (angle UL DL) (distance UL DL) LU (distance UL UR)) ltac:(discriminate) ltac:(discriminate)) as [X1 X2]. split; [exact X1|]. split; [exact X2|]. split; [discriminate|]. split; [exact PAR|].
      intros _ F1 F2 F3 F4. exfalso. destruct (RECT F1 F2 F3 F4) as (_ & _ & Z & _). apply AE. rewrite Z. replace (PI / 2 - PI / 2) with 0 by ring. rewrite Rabs_R0. lra.
  Qed.
  (* convex regions *)
  Theorem convex_never_raises : split_by_diagonal UL DL UR DR -> 0 < cross (vec UL DL) (vec UL UR) -> classify true UL DL UR DR <> rRaise.
  Proof.
    intros [C1 C2] C3 H. apply classify_ok in H as [[E1 E2] NP]. apply NP. split; [|exact C3]. unfold parallelogram.
    unfold norm in E1, E2. assert (sq : forall v, 0 <= inner v v) by (intros v; unfold inner; assert (A := Rle_0_sqr (fst v)); assert (B := Rle_0_sqr (snd v)); unfold Rsqr in *; lra).
    apply sqrt_inj in E1; [|apply sq|apply sq]. apply sqrt_inj in E2; [|apply sq|apply sq]. unfold inner, cross, vec in *. cbn [fst snd] in *.
    set (e1 := fst DL - fst UL) in *. set (e2 := snd DL - snd UL) in *. set (f1 := fst UR - fst UL) in *. set (f2 := snd UR - snd UL) in *. set (g1 := fst DR - fst UL) in *. set (g2 := snd DR - snd UL) in *.
    replace (fst DR - fst UR) with (g1 - f1) in * by (unfold g1, f1; ring). replace (snd DR - snd UR) with (g2 - f2) in * by (unfold g2, f2; ring).
    replace (fst DR - fst DL) with (g1 - e1) in * by (unfold g1, e1; ring). replace (snd DR - snd DL) with (g2 - e2) in * by (unfold g2, e2; ring).
    set (d1 := g1 - e1 - f1). set (d2 := g2 - e2 - f2).
    assert (X : g1 * d1 + g2 * d2 = 0) by (unfold d1, d2; lra). assert (Y : (e1 - f1) * d1 + (e2 - f2) * d2 = 0) by (unfold d1, d2; lra).
    set (k := (g1 * (e2 - f2) - g2 * (e1 - f1))). assert (K : k < 0) by (unfold k; lra).
    assert (D1 : k * d1 = 0). { unfold k. transitivity ((e2 - f2) * (g1 * d1 + g2 * d2) - g2 * ((e1 - f1) * d1 + (e2 - f2) * d2)); [ring|rewrite X, Y; ring]. }
    assert (D2 : k * d2 = 0). { unfold k. transitivity (g1 * ((e1 - f1) * d1 + (e2 - f2) * d2) - (e1 - f1) * (g1 * d1 + g2 * d2)); [ring|rewrite X, Y; ring]. }
    apply Rmult_integral in D1 as [D1|D1]; [lra|]. apply Rmult_integral in D2 as [D2|D2]; [lra|]. unfold d1, d2 in *. f_equal; lra.
  Qed.
End Region.
(* elements with the same data have the same vectors *)
Theorem same_data UL DL UR DR UL' DL' UR' DR' dx dy dx' dy' a l t u : UL <> DL -> UL <> UR -> UL' <> DL' -> UL' <> UR' ->
  classify_element (classify true UL DL UR DR) dx dy = rParallel a l t u -> classify_element (classify true UL' DL' UR' DR') dx' dy' = rParallel a l t u ->
  times2 dx (vec UL DL) = times2 dx' (vec UL' DL') /\ times2 dy (vec UL UR) = times2 dy' (vec UL' UR').
Proof.
  intros N1 N2 N3 N4 E E'. destruct (classify_ok UL DL UR DR N1 N2) as (_ & _ & _ & C & _). destruct (classify_ok UL' DL' UR' DR' N3 N4) as (_ & _ & _ & C' & _).
  destruct (classify true UL DL UR DR) as [| | |a1 l1 t1 u1]; try discriminate. destruct (classify true UL' DL' UR' DR') as [| | |a2 l2 t2 u2]; try discriminate.
  destruct (C _ _ _ _ eq_refl) as (_ & _ & V1 & V2 & _). destruct (C' _ _ _ _ eq_refl) as (_ & _ & W1 & W2 & _). cbn [classify_element] in E, E'. injection E as -> L1 -> L2. injection E' as -> L3 -> L4.
  rewrite V1, V2, W1, W2. unfold times2. cbn [fst snd]. split; f_equal; rewrite <- !Rmult_assoc; f_equal; congruence.
Qed.
Theorem chaotic_curved UL DL UR DR : classify false UL DL UR DR = rChaos. Proof. reflexivity. Qed.
