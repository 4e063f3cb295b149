(* Heron's formula, the law of cosines and the sum of angles. *)
From Coq Require Import List Arith Reals Lra Psatz Permutation.
From Verif Require Import TriModel TriSpec TriProofs2 TriProofs3 TriProofs6 TsizeModel.
Import ListNotations.
Local Open Scope R_scope.

Lemma dist_sq p q : distance p q * distance p q = (fst p - fst q) ^ 2 + (snd p - snd q) ^ 2.
Proof. apply sqrt_sqrt. apply Rplus_le_le_0_compat; apply pow2_ge_0. Qed.
Lemma dist_ge p q : 0 <= distance p q. Proof. apply sqrt_pos. Qed.
Lemma dist_sym p q : distance p q = distance q p. Proof. unfold distance. f_equal. ring. Qed.
Lemma dist_gt p q : p <> q -> 0 < distance p q.
Proof.
  intros H. destruct (dist_ge p q) as [L|E]; [exact L|]. exfalso. apply H. assert (Q := dist_sq p q). rewrite <- E in Q. destruct p as [x y], q as [x' y']. cbn [fst snd] in Q.
  assert (X := pow2_ge_0 (x - x')). assert (Y := pow2_ge_0 (y - y')). assert (x - x' = 0) by (apply Rsqr_0_uniq; unfold Rsqr; lra). assert (y - y' = 0) by (apply Rsqr_0_uniq; unfold Rsqr; lra). f_equal; lra.
Qed.
Lemma dist_zero p : distance p p = 0.
Proof. unfold distance. replace ((fst p - fst p) ^ 2 + (snd p - snd p) ^ 2) with 0 by ring. apply sqrt_0. Qed.
Lemma heron_sq A B C : let a := distance B C in let b := distance A C in let c := distance A B in
  4 * ((b * b) * (c * c)) = (b * b + c * c - a * a) * (b * b + c * c - a * a) + 4 * (area2 A B C * area2 A B C).
Proof. cbv zeta. rewrite !dist_sq. destruct A as [x y], B as [x' y'], C as [x2 y2]. unfold area2. cbn [fst snd]. ring. Qed.

Theorem area_ok A B C : tri_area A B C = Some (Rabs (area2 A B C) / 2).
Proof.
  unfold tri_area, edge_lengths. assert (H := heron_sq A B C). cbv zeta in H. rewrite (dist_sym C B).
  set (a := distance B C) in *. set (b := distance A C) in *. set (c := distance A B) in *. cbv zeta.
  assert (E : (c + b + a) / 2 * ((c + b + a) / 2 - c) * ((c + b + a) / 2 - b) * ((c + b + a) / 2 - a) = (area2 A B C / 2) * (area2 A B C / 2)) by nra.
  rewrite E. unfold root. destruct (Rle_dec 0 (area2 A B C / 2 * (area2 A B C / 2))) as [_|N]; [|exfalso; apply N; nra].
  f_equal. change (area2 A B C / 2 * (area2 A B C / 2)) with (Rsqr (area2 A B C / 2)). rewrite sqrt_Rsqr_abs. unfold Rdiv. rewrite Rabs_mult. f_equal. apply Rabs_right. lra.
Qed.

Section Angles.
  Variables a b c S : R.
  Hypothesis Ha : 0 < a.
  Hypothesis Hb : 0 < b.
  Hypothesis Hc : 0 < c.
  Hypothesis HS : 0 <= S.
  Hypothesis H : 4 * ((b * b) * (c * c)) = (b * b + c * c - a * a) * (b * b + c * c - a * a) + 4 * (S * S).
  Let u := (b * b + c * c - a * a) / (2 * b * c).
  Let v := (a * a + c * c - b * b) / (2 * a * c).
  Let w := (a * a + b * b - c * c) / (2 * a * b).
  Lemma sq_u : u * u + (S / (b * c)) * (S / (b * c)) = 1.
  Proof. unfold u. apply (Rmult_eq_reg_r (4 * ((b * b) * (c * c)))); [|repeat apply Rmult_integral_contrapositive_currified; lra]. rewrite Rmult_1_l. rewrite H at 2. field. lra. Qed.
  Lemma sq_v : v * v + (S / (a * c)) * (S / (a * c)) = 1.
  Proof.
    unfold v. assert (H' : 4 * ((a * a) * (c * c)) = (a * a + c * c - b * b) * (a * a + c * c - b * b) + 4 * (S * S)) by lra.
    apply (Rmult_eq_reg_r (4 * ((a * a) * (c * c)))); [|repeat apply Rmult_integral_contrapositive_currified; lra]. rewrite Rmult_1_l. rewrite H' at 2. field. lra.
  Qed.
  Lemma sq_w : w * w + (S / (a * b)) * (S / (a * b)) = 1.
  Proof.
    unfold w. assert (H' : 4 * ((a * a) * (b * b)) = (a * a + b * b - c * c) * (a * a + b * b - c * c) + 4 * (S * S)) by lra.
    apply (Rmult_eq_reg_r (4 * ((a * a) * (b * b)))); [|repeat apply Rmult_integral_contrapositive_currified; lra]. rewrite Rmult_1_l. rewrite H' at 2. field. lra.
  Qed.
  Lemma in_one x y : x * x + y * y = 1 -> -1 <= x <= 1. Proof. intros E. split; nra. Qed.
  Lemma sin_of x y : 0 <= y -> x * x + y * y = 1 -> sin (acos x) = y.
  Proof.
    intros Y E. rewrite sin_acos by exact (in_one x y E). unfold Rsqr. replace (1 - x * x) with (Rsqr y) by (unfold Rsqr; lra). rewrite sqrt_Rsqr_abs. apply Rabs_right. lra.
  Qed.
  Lemma pos_ratio x : 0 < x -> 0 <= S / x.
  Proof. intros X. apply Rmult_le_pos; [exact HS|]. apply Rlt_le, Rinv_0_lt_compat, X. Qed.
  Lemma sin_u : sin (acos u) = S / (b * c). Proof. apply sin_of; [apply pos_ratio; nra|exact sq_u]. Qed.
  Lemma sin_v : sin (acos v) = S / (a * c). Proof. apply sin_of; [apply pos_ratio; nra|exact sq_v]. Qed.
  Lemma sin_w : sin (acos w) = S / (a * b). Proof. apply sin_of; [apply pos_ratio; nra|exact sq_w]. Qed.
  Lemma cos_u : cos (acos u) = u. Proof. apply cos_acos. exact (in_one _ _ sq_u). Qed.
  Lemma cos_v : cos (acos v) = v. Proof. apply cos_acos. exact (in_one _ _ sq_v). Qed.
  Lemma cos_w : cos (acos w) = w. Proof. apply cos_acos. exact (in_one _ _ sq_w). Qed.
  Lemma cos_vw : cos (acos v + acos w) = - u.
  Proof.
    rewrite cos_plus, cos_v, cos_w, sin_v, sin_w. unfold u, v, w. apply (Rmult_eq_reg_r (4 * (a * a) * b * c)); [|repeat apply Rmult_integral_contrapositive_currified; lra].
    transitivity ((a * a + c * c - b * b) * (a * a + b * b - c * c) - 4 * (S * S)); [field; lra|].
    transitivity (- 2 * (a * a) * (b * b + c * c - a * a)); [|field; lra]. lra.
  Qed.
  Lemma sin_vw : sin (acos v + acos w) = S / (b * c).
  Proof. rewrite sin_plus, cos_v, cos_w, sin_v, sin_w. unfold v, w. field. lra. Qed.
  Lemma all_minus : ~ (u = -1 /\ v = -1 /\ w = -1).
  Proof.
    intros (U & V & W). unfold u, v, w in *.
    assert (U' : b * b + c * c - a * a = - (2 * b * c)) by (replace (b * b + c * c - a * a) with ((b * b + c * c - a * a) / (2 * b * c) * (2 * b * c)) by (field; lra); rewrite U; ring).
    assert (V' : a * a + c * c - b * b = - (2 * a * c)) by (replace (a * a + c * c - b * b) with ((a * a + c * c - b * b) / (2 * a * c) * (2 * a * c)) by (field; lra); rewrite V; ring).
    nra.
  Qed.
  Theorem angles_sum : acos u + acos v + acos w = PI.
  Proof.
    assert (Bu := acos_bound u). assert (Bv := acos_bound v). assert (Bw := acos_bound w). assert (P := PI_RGT_0).
    assert (Q : 0 < b * c) by nra. destruct HS as [L|E].
    - assert (SP : 0 < S / (b * c)) by (apply Rmult_lt_0_compat; [exact L|apply Rinv_0_lt_compat, Q]).
      assert (LT : acos v + acos w < PI). { destruct (Rlt_dec (acos v + acos w) PI) as [X|X]; [exact X|]. exfalso. assert (Y := sin_le_0 (acos v + acos w) ltac:(lra) ltac:(lra)). rewrite sin_vw in Y. lra. }
      assert (X : acos v + acos w = PI - acos u). { apply cos_inj; try lra. rewrite cos_vw. replace (PI - acos u) with (- (acos u - PI)) by ring. rewrite cos_neg. replace (acos u - PI) with (acos u + PI - 2 * PI) by ring. rewrite <- (cos_period (acos u + PI - 2 * PI) 1). replace (acos u + PI - 2 * PI + 2 * INR 1 * PI) with (acos u + PI) by (cbn; ring). rewrite neg_cos, cos_u. ring. }
      lra.
    - assert (D : forall x, 0 < x -> S / x = 0) by (intros x X; rewrite <- E; unfold Rdiv; ring).
      assert (one : forall x y, y = 0 -> x * x + y * y = 1 -> x = 1 \/ x = -1) by (intros x y -> X; assert ((x - 1) * (x + 1) = 0) as Z by lra; apply Rmult_integral in Z as [Z|Z]; [left|right]; lra).
      assert (Eu := one _ _ (D _ Q) sq_u). assert (Ev := one _ _ (D (a * c) ltac:(nra)) sq_v). assert (Ew := one _ _ (D (a * b) ltac:(nra)) sq_w).
      assert (C := cos_vw). rewrite cos_plus, cos_v, cos_w, sin_v, sin_w in C. rewrite (D (a * c)), (D (a * b)) in C by nra.
      assert (M1 : acos (-1) = PI) by (replace (-1) with (- (1)) by ring; rewrite acos_opp, acos_1; ring).
      destruct Eu as [Eu|Eu], Ev as [Ev|Ev], Ew as [Ew|Ew]; rewrite Eu, Ev, Ew in *; rewrite ?M1, ?acos_1; try lra. exfalso. apply all_minus. auto.
  Qed.
  Lemma strict_u : 0 < S -> 0 < acos u < PI.
  Proof.
    intros L. apply acos_bound_lt. assert (SP : 0 < S / (b * c)) by (apply Rmult_lt_0_compat; [exact L|apply Rinv_0_lt_compat; nra]). assert (X := sq_u). split; nra.
  Qed.
  Lemma strict_v : 0 < S -> 0 < acos v < PI.
  Proof.
    intros L. apply acos_bound_lt. assert (SP : 0 < S / (a * c)) by (apply Rmult_lt_0_compat; [exact L|apply Rinv_0_lt_compat; nra]). assert (X := sq_v). split; nra.
  Qed.
  Lemma strict_w : 0 < S -> 0 < acos w < PI.
  Proof.
    intros L. apply acos_bound_lt. assert (SP : 0 < S / (a * b)) by (apply Rmult_lt_0_compat; [exact L|apply Rinv_0_lt_compat; nra]). assert (X := sq_w). split; nra.
  Qed.
  Lemma flat_angles : S = 0 -> (acos u = 0 \/ acos u = PI) /\ (acos v = 0 \/ acos v = PI) /\ (acos w = 0 \/ acos w = PI).
  Proof.
    intros E. assert (D : forall x, S / x = 0) by (intros x; rewrite E; unfold Rdiv; ring).
    assert (one : forall x y, y = 0 -> x * x + y * y = 1 -> acos x = 0 \/ acos x = PI).
    { intros x y -> X. assert ((x - 1) * (x + 1) = 0) as Z by lra. apply Rmult_integral in Z as [Z|Z]; [left; replace x with 1 by lra; apply acos_1|right; replace x with (- (1)) by lra; rewrite acos_opp, acos_1; ring]. }
    split; [exact (one _ _ (D _) sq_u)|]. split; [exact (one _ _ (D _) sq_v)|exact (one _ _ (D _) sq_w)].
  Qed.
  Lemma third : acos (1 / 2) = PI / 3.
  Proof. rewrite <- cos_PI3. apply acos_cos. assert (P := PI_RGT_0). lra. Qed.
  Lemma equal_angles : (acos u = PI / 3 /\ acos v = PI / 3 /\ acos w = PI / 3) <-> (a = b /\ b = c).
  Proof.
    split.
    - intros (U & V & W). assert (CU := cos_u). assert (CV := cos_v). assert (CW := cos_w). rewrite U in CU. rewrite V in CV. rewrite W in CW. rewrite cos_PI3 in *.
      assert (U' : b * b + c * c - a * a = b * c) by (replace (b * b + c * c - a * a) with (u * (2 * b * c)) by (unfold u; field; lra); rewrite <- CU; field).
      assert (V' : a * a + c * c - b * b = a * c) by (replace (a * a + c * c - b * b) with (v * (2 * a * c)) by (unfold v; field; lra); rewrite <- CV; field).
      assert (W' : a * a + b * b - c * c = a * b) by (replace (a * a + b * b - c * c) with (w * (2 * a * b)) by (unfold w; field; lra); rewrite <- CW; field).
      assert (Z : (a - b) * (a - b) + (b - c) * (b - c) + (c - a) * (c - a) = 0) by lra.
      assert (Z1 := Rle_0_sqr (a - b)). assert (Z2 := Rle_0_sqr (b - c)). assert (Z3 := Rle_0_sqr (c - a)). unfold Rsqr in Z1, Z2, Z3.
      split; apply Rminus_diag_uniq, Rsqr_0_uniq; unfold Rsqr; lra.
    - intros (-> & ->). unfold u, v, w. replace ((c * c + c * c - c * c) / (2 * c * c)) with (1 / 2) by (field; lra). rewrite third. auto.
  Qed.
End Angles.

Theorem angles_ok A B C : A <> B -> B <> C -> A <> C -> exists al be ga, angles_of_triangle A B C = Some (al, be, ga) /\
  al + be + ga = 180 /\ 0 <= al <= 180 /\ 0 <= be <= 180 /\ 0 <= ga <= 180 /\
  (area2 A B C <> 0 -> 0 < al < 180 /\ 0 < be < 180 /\ 0 < ga < 180) /\
  (area2 A B C = 0 -> (al = 0 \/ al = 180) /\ (be = 0 \/ be = 180) /\ (ga = 0 \/ ga = 180)) /\
  ((al = 60 /\ be = 60 /\ ga = 60) <-> (distance B C = distance A C /\ distance A C = distance A B)) /\
  (let dot p q r := (fst q - fst p) * (fst r - fst p) + (snd q - snd p) * (snd r - snd p) in
   dot A B C = cos (al * PI / 180) * (distance A B * distance A C) /\
   dot B C A = cos (be * PI / 180) * (distance B C * distance A B) /\
   dot C A B = cos (ga * PI / 180) * (distance A C * distance B C)).
Proof.
  intros N1 N2 N3. assert (H := heron_sq A B C). cbv zeta in H. assert (Ha := dist_gt _ _ N2). assert (Hb := dist_gt _ _ N3). assert (Hc := dist_gt _ _ N1).
  assert (Qa := dist_sq B C). assert (Qb := dist_sq A C). assert (Qc := dist_sq A B). unfold angles_of_triangle. cbv zeta.
  set (a := distance B C) in *. set (b := distance A C) in *. set (c := distance A B) in *.
  replace (a ^ 2) with (a * a) by ring. replace (b ^ 2) with (b * b) by ring. replace (c ^ 2) with (c * c) by ring.
  set (S := Rabs (area2 A B C)). assert (HS : 0 <= S) by apply Rabs_pos.
  assert (SS : S * S = area2 A B C * area2 A B C) by (change (Rsqr (Rabs (area2 A B C)) = Rsqr (area2 A B C)); symmetry; apply Rsqr_abs).
  rewrite <- SS in H.
  assert (D : forall x y, y <> 0 -> -1 <= x / y <= 1 -> angle_cos x y = Some (acos (x / y))).
  { intros x y Y [L U]. unfold angle_cos, divide, arccos. destruct (Req_EM_T y 0); [contradiction|]. cbn [obind]. destruct (Rle_dec (-1) (x / y)); [|contradiction]. destruct (Rle_dec (x / y) 1); [reflexivity|contradiction]. }
  assert (P : 0 < PI) by apply PI_RGT_0.
  rewrite D; [|repeat apply Rmult_integral_contrapositive_currified; lra|exact (in_one _ _ (sq_u a b c S Hb Hc H))].
  rewrite D; [|repeat apply Rmult_integral_contrapositive_currified; lra|exact (in_one _ _ (sq_v a b c S Ha Hc H))].
  rewrite D; [|repeat apply Rmult_integral_contrapositive_currified; lra|exact (in_one _ _ (sq_w a b c S Ha Hb H))].
  cbn [obind]. eexists. eexists. eexists. split; [reflexivity|].
  assert (SUM := angles_sum a b c S Ha Hb Hc HS H). assert (EQ := equal_angles a b c S Ha Hb Hc H).
  assert (CU := cos_u a b c S Hb Hc H). assert (CV := cos_v a b c S Ha Hc H). assert (CW := cos_w a b c S Ha Hb H).
  assert (ST := strict_u a b c S Hb Hc H). assert (SV := strict_v a b c S Ha Hc H). assert (SW := strict_w a b c S Ha Hb H).
  assert (FL := flat_angles a b c S Ha Hb Hc H).
  set (u := acos ((b * b + c * c - a * a) / (2 * b * c))) in *. set (v := acos ((a * a + c * c - b * b) / (2 * a * c))) in *. set (w := acos ((a * a + b * b - c * c) / (2 * a * b))) in *.
  assert (Bu : 0 <= u <= PI) by apply acos_bound. assert (Bv : 0 <= v <= PI) by apply acos_bound. assert (Bw : 0 <= w <= PI) by apply acos_bound.
  assert (DG : forall x, degrees x = x * (180 / PI)) by (intros x; unfold degrees, Rdiv; ring).
  assert (K : 0 < 180 / PI) by (apply Rmult_lt_0_compat; [lra|apply Rinv_0_lt_compat, P]). assert (KP : PI * (180 / PI) = 180) by (field; lra).
  assert (mono : forall x y, x <= y -> degrees x <= degrees y) by (intros x y L; rewrite !DG; apply Rmult_le_compat_r; lra).
  assert (smono : forall x y, x < y -> degrees x < degrees y) by (intros x y L; rewrite !DG; apply Rmult_lt_compat_r; lra).
  assert (D0 : degrees 0 = 0) by (rewrite DG; ring). assert (DP : degrees PI = 180) by (rewrite DG; exact KP).
  assert (D3 : forall x, degrees x = 60 <-> x = PI / 3).
  { intros x. split; intros E; [|rewrite E, DG; field; lra]. unfold degrees in E. apply (Rmult_eq_reg_r (180 / PI)); [|lra]. transitivity 60; [rewrite <- E; field; lra|field; lra]. }
  assert (BD : forall x, 0 <= x <= PI -> 0 <= degrees x <= 180) by (intros x [L U]; rewrite <- D0 at 1; rewrite <- DP; split; apply mono; assumption).
  assert (BS : forall x, 0 < x < PI -> 0 < degrees x < 180) by (intros x [L U]; rewrite <- D0 at 1; rewrite <- DP; split; apply smono; assumption).
  assert (BE : forall x, x = 0 \/ x = PI -> degrees x = 0 \/ degrees x = 180) by (intros x [->| ->]; auto).
  assert (BACK : forall x, degrees x * PI / 180 = x) by (intros x; unfold degrees; field; lra).
  split; [rewrite !DG; transitivity ((u + v + w) * (180 / PI)); [ring|rewrite SUM; exact KP]|]. split; [apply BD, Bu|]. split; [apply BD, Bv|]. split; [apply BD, Bw|]. split; [|split; [|split]].
  - intros N. assert (SP : 0 < S) by (apply Rabs_pos_lt, N). split; [apply BS, ST, SP|]. split; [apply BS, SV, SP|apply BS, SW, SP].
  - intros Z. assert (S = 0) as S0 by (unfold S; rewrite Z; apply Rabs_R0). destruct (FL S0) as (F1 & F2 & F3). auto.
  - rewrite !D3. exact EQ.
  - cbv zeta. rewrite !BACK, CU, CV, CW. split; [|split].
    + transitivity ((b * b + c * c - a * a) / 2); [rewrite Qa, Qb, Qc; field|field; lra].
    + transitivity ((a * a + c * c - b * b) / 2); [rewrite Qa, Qb, Qc; field|field; lra].
    + transitivity ((a * a + b * b - c * c) / 2); [rewrite Qa, Qb, Qc; field|field; lra].
Qed.
Theorem angles_none A B C : angles_of_triangle A B C = None <-> A = B \/ B = C \/ A = C.
Proof.
  assert (dec : forall p q : point, p = q \/ p <> q) by (intros [x y] [x' y']; destruct (Req_dec x x') as [->|N]; [destruct (Req_dec y y') as [->|N]; [left; reflexivity|right; congruence]|right; congruence]).
  assert (Z : forall x y, y = 0 -> angle_cos x y = None) by (intros x y ->; unfold angle_cos, divide; destruct (Req_EM_T 0 0); [reflexivity|contradiction]).
  split.
  - intros E. destruct (dec A B) as [H1|H1]; [auto|]. destruct (dec B C) as [H2|H2]; [auto|]. destruct (dec A C) as [H3|H3]; [auto|].
    destruct (angles_ok A B C H1 H2 H3) as (al & be & ga & X & _). rewrite X in E. discriminate.
  - unfold angles_of_triangle. cbv zeta. intros [->|[->| ->]].
    + rewrite (Z _ (2 * distance B C * distance B B)) by (rewrite dist_zero; ring). reflexivity.
    + destruct (angle_cos (distance A C ^ 2 + distance A C ^ 2 - distance C C ^ 2) (2 * distance A C * distance A C)); cbn [obind]; [|reflexivity].
      rewrite (Z _ (2 * distance C C * distance A C)) by (rewrite dist_zero; ring). reflexivity.
    + rewrite (Z _ (2 * distance C C * distance C B)) by (rewrite dist_zero; ring). reflexivity.
Qed.
Theorem quality_ok A B C : A <> B -> B <> C -> A <> C -> exists x, quality A B C = Some x /\ 0 <= x <= 1 /\
  (x = 1 <-> distance B C = distance A C /\ distance A C = distance A B) /\ (x = 0 <-> area2 A B C = 0).
Proof.
  intros N1 N2 N3. destruct (angles_ok A B C N1 N2 N3) as (al & be & ga & E & SUM & B1 & B2 & B3 & ST & FL & EQ & _). unfold quality. rewrite E. cbn [obind]. eexists. split; [reflexivity|].
  rewrite <- EQ. set (d := Rabs (al - 60) + (Rabs (be - 60) + (Rabs (ga - 60) + 0))).
  assert (D0 : 0 <= d) by (unfold d; assert (X := Rabs_pos (al - 60)); assert (Y := Rabs_pos (be - 60)); assert (Z := Rabs_pos (ga - 60)); lra).
  assert (D1 : d <= 240) by (unfold d, Rabs; destruct (Rcase_abs (al - 60)), (Rcase_abs (be - 60)), (Rcase_abs (ga - 60)); lra).
  rewrite (Rabs_right (1 - d / 240)) by lra. split; [lra|]. split.
  - split.
    + intros X. assert (Y : d = 0) by lra. unfold d in Y. assert (X1 := Rabs_pos (al - 60)). assert (X2 := Rabs_pos (be - 60)). assert (X3 := Rabs_pos (ga - 60)).
      assert (Z : forall y, Rabs y = 0 -> y = 0) by (intros y Hy; destruct (Req_dec y 0) as [Q|Q]; [exact Q|exfalso; exact (Rabs_no_R0 y Q Hy)]).
      assert (al - 60 = 0) by (apply Z; lra). assert (be - 60 = 0) by (apply Z; lra). assert (ga - 60 = 0) by (apply Z; lra). lra.
    + intros (-> & -> & ->). unfold d. replace (60 - 60) with 0 by ring. rewrite Rabs_R0. lra.
  - split.
    + intros X. destruct (Req_dec (area2 A B C) 0) as [Z|Z]; [exact Z|]. exfalso. destruct (ST Z) as (S1 & S2 & S3). assert (Y : d = 240) by lra. unfold d, Rabs in Y. destruct (Rcase_abs (al - 60)), (Rcase_abs (be - 60)), (Rcase_abs (ga - 60)); lra.
    + intros Z. destruct (FL Z) as (F1 & F2 & F3). enough (d = 240) by lra. unfold d, Rabs. destruct (Rcase_abs (al - 60)), (Rcase_abs (be - 60)), (Rcase_abs (ga - 60)), F1, F2, F3; lra.
Qed.

(* ---------- the area of the domain ---------- *)
Definition radd (l : list R) : R := fold_right Rplus 0 l.
Lemma radd_app l m : radd (l ++ m) = radd l + radd m.
Proof. unfold radd. induction l as [|x l IH]; cbn; [ring|]. rewrite IH. ring. Qed.
Lemma radd_perm l m : Permutation l m -> radd l = radd m.
Proof. unfold radd. induction 1; cbn; lra. Qed.
Theorem domain_area_ok conds pts cells0 cells M cores : make_mesh conds pts cells0 = Some (cells, M) -> Permutation (concat cores) (seq 0 (length cells)) ->
  domain_area pts cells cores = Some (fold_right Rplus 0 (map (fun t => area2 (pt pts (corner t 0)) (pt pts (corner t 1)) (pt pts (corner t 2)) / 2) cells)) /\
  forall t, In t cells -> 0 < area2 (pt pts (corner t 0)) (pt pts (corner t 1)) (pt pts (corner t 2)).
Proof.
  intros HE HP. assert (HOR : oriented_cells pts cells0 = Some cells).
  { unfold make_mesh in HE. destruct (oriented_cells pts cells0) as [cs|]; [|discriminate]. cbn [bind] in HE. destruct (element_map cs) as [E|]; [|discriminate]. cbn [bind] in HE. destruct (parse_boundaries conds pts cs E); [|discriminate]. cbn [bind] in HE. congruence. }
  destruct (oriented_cells_ok _ _ _ HOR) as [LN OC].
  set (ar := fun t : tri => area2 (pt pts (corner t 0)) (pt pts (corner t 1)) (pt pts (corner t 2)) / 2).
  assert (PO : forall t, In t cells -> 0 < area2 (pt pts (corner t 0)) (pt pts (corner t 1)) (pt pts (corner t 2))).
  { intros t I. apply (In_nth _ _ (0, 0, 0)%nat) in I as (k & Hk & Ek). destruct (OC k ltac:(rewrite <- LN; exact Hk)) as [W _]. assert (Ek' : cl cells k = t) by exact Ek. rewrite Ek' in W. destruct t as [[x y] z]. exact W. }
  split; [|exact PO].
  assert (CA : forall e, (e < length cells)%nat -> cell_area pts (nth e cells (0, 0, 0)%nat) = Some (ar (nth e cells (0, 0, 0)%nat))).
  { intros e He. assert (Q := PO _ (nth_In cells (0, 0, 0)%nat He)). destruct (nth e cells (0, 0, 0)%nat) as [[x y] z] eqn:En. unfold cell_area. rewrite area_ok. unfold ar. cbn [corner] in *. f_equal. f_equal. apply Rabs_right, Rle_ge, Rlt_le. exact Q. }
  assert (CO : forall es s, (forall e, In e es -> (e < length cells)%nat) -> fold_left (fun s e => obind s (fun s => obind (cell_area pts (nth e cells (0, 0, 0)%nat)) (fun x => Some (s + x)))) es (Some s) = Some (s + radd (map (fun e => ar (nth e cells (0, 0, 0)%nat)) es))).
  { induction es as [|e es IH]; intros s Hes; cbn [fold_left map radd fold_right obind]; [f_equal; unfold radd; cbn; ring|]. rewrite CA by (apply Hes; left; reflexivity). cbn [obind]. rewrite IH by (intros e' I; apply Hes; right; exact I). f_equal. unfold radd. cbn [fold_right]. ring. }
  assert (DO : forall cs s, (forall e, In e (concat cs) -> (e < length cells)%nat) -> fold_left (fun s es => obind s (fun s => obind (core_area pts cells es) (fun x => Some (s + x)))) cs (Some s) = Some (s + radd (map (fun e => ar (nth e cells (0, 0, 0)%nat)) (concat cs)))).
  { induction cs as [|es cs IH]; intros s Hes; cbn [fold_left map concat obind]; [f_equal; unfold radd; cbn; ring|]. unfold core_area at 2. rewrite CO by (intros e I; apply Hes; cbn [concat]; apply in_or_app; left; exact I). cbn [obind].
    rewrite IH by (intros e I; apply Hes; cbn [concat]; apply in_or_app; right; exact I). f_equal. rewrite map_app, radd_app. ring. }
  unfold domain_area. rewrite DO by (intros e I; apply (Permutation_in _ HP), in_seq in I; lia). f_equal. rewrite Rplus_0_l. change (radd (map (fun e => ar (nth e cells (0, 0, 0)%nat)) (concat cores)) = radd (map ar cells)).
  rewrite (radd_perm _ _ (Permutation_map _ HP)). f_equal. rewrite <- (map_map (fun e => nth e cells (0, 0, 0)%nat) ar). f_equal.
  clear. induction cells as [|t cells IH]; [reflexivity|]. cbn [length seq map nth]. f_equal. rewrite <- seq_shift, map_map. exact IH.
Qed.
