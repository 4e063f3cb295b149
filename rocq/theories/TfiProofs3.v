(* Proofs about TfiModel: the crazy maps. *)
From Coq Require Import Reals List Lra Lia Ranalysis_reg.
From Verif Require Import TfiModel TransModel Edge2Model TfiSpec TfiProofs TfiProofs2.
Import ListNotations.
Open Scope R_scope.

Lemma sin2_lim : forall x, derivable_pt_lim (fun y => sin (2 * PI * y)) x (2 * PI * cos (2 * PI * x)).
Proof.
  intro x. replace (2 * PI * cos (2 * PI * x)) with (cos (2 * PI * x) * (2 * PI)) by ring.
  apply (derivable_pt_lim_comp (fun y => 2 * PI * y) sin).
  - apply (lim_ext' (fun y => 0 + 2 * PI * y)); [intro; ring | apply affine_lim].
  - apply derivable_pt_lim_sin.
Qed.

Lemma one_term : forall a b k u du x l, derivable_pt_lim u x du -> l = b + k * du ->
  derivable_pt_lim (fun y => a + b * y + k * u y) x l.
Proof.
  intros a b k u du x l D ->.
  pose proof (lim_comb [(k, u, du)] a b x) as H. cbn [comb dcomb] in H.
  rewrite Rplus_0_r in H.
  apply (lim_ext' (fun y => a + b * y + (k * u y + 0))); [intro; ring|].
  apply H. intros k' u' du' [E|[]]. injection E as _ <- <-. exact D.
Qed.

Ltac term1 a b k x :=
  apply (lim_ext' (fun y => a + b * y + k * sin (2 * PI * y)));
  [intro; ring | apply (one_term a b k (fun y => sin (2 * PI * y)) (2 * PI * cos (2 * PI * x)));
                 [apply sin2_lim | ring]].

Lemma crazy_jacobian : forall cc bd, jacobian_of (crazy_map cc bd) (crazy_Jacobian_matrix cc bd).
Proof.
  intros cc [[[a b] [c d]] [e f]] co r s t. unfold crazy_map, crazy_Jacobian_matrix.
  destruct (Req_EM_T cc 0) as [E|E].
  - destruct co; cbn [mrow]; rewrite ?Rmult_1_r; repeat split;
    match goal with
    | |- derivable_pt_lim _ _ 0 => apply derivable_pt_lim_const
    | |- derivable_pt_lim (fun x => ?m * x + ?n) _ _ =>
        apply (lim_ext' (fun y => n + m * y)); [intro; ring | apply affine_lim]
    end.
  - destruct co; cbn [mrow]; repeat split.
    + term1 a (b - a) ((b - a) * (1 / 2 * cc * sin (2 * PI * s) * sin (2 * PI * t))) r.
    + term1 ((b - a) * r + a) 0 ((b - a) * (1 / 2 * cc * sin (2 * PI * r) * sin (2 * PI * t))) s.
    + term1 ((b - a) * r + a) 0 ((b - a) * (1 / 2 * cc * sin (2 * PI * r) * sin (2 * PI * s))) t.
    + term1 ((d - c) * s + c) 0 ((d - c) * (1 / 2 * cc * sin (2 * PI * s) * sin (2 * PI * t))) r.
    + term1 c (d - c) ((d - c) * (1 / 2 * cc * sin (2 * PI * r) * sin (2 * PI * t))) s.
    + term1 ((d - c) * s + c) 0 ((d - c) * (1 / 2 * cc * sin (2 * PI * r) * sin (2 * PI * s))) t.
    + term1 ((f - e) * t + e) 0 ((f - e) * (1 / 2 * cc * sin (2 * PI * s) * sin (2 * PI * t))) r.
    + term1 ((f - e) * t + e) 0 ((f - e) * (1 / 2 * cc * sin (2 * PI * r) * sin (2 * PI * t))) s.
    + term1 e (f - e) ((f - e) * (1 / 2 * cc * sin (2 * PI * r) * sin (2 * PI * s))) t.
Qed.

Lemma crazy2_jacobian : forall cc bd, jacobian2_of (crazy2_map cc bd) (crazy2_Jacobian_matrix cc bd).
Proof.
  intros cc [[a b] [c d]] r s. unfold crazy2_map, crazy2_Jacobian_matrix. repeat split.
  - term1 a (b - a) ((b - a) * (1 / 2 * cc * sin (2 * PI * s))) r.
  - term1 ((b - a) * r + a) 0 ((b - a) * (1 / 2 * cc * sin (2 * PI * r))) s.
  - term1 ((d - c) * s + c) 0 ((d - c) * (1 / 2 * cc * sin (2 * PI * s))) r.
  - term1 c (d - c) ((d - c) * (1 / 2 * cc * sin (2 * PI * r))) s.
Qed.

(* ---- one formula for both branches ---- *)
Definition S3 (r s t : R) := sin (2 * PI * r) * sin (2 * PI * s) * sin (2 * PI * t).
Definition lo_of (bd : (R * R) * (R * R) * (R * R)) (c0 : coord) : R :=
  match bd with ((a, b), (c, d), (e, f)) => match c0 with cX => a | cY => c | cZ => e end end.
Definition len_of (bd : (R * R) * (R * R) * (R * R)) (c0 : coord) : R :=
  match bd with ((a, b), (c, d), (e, f)) => match c0 with cX => b - a | cY => d - c | cZ => f - e end end.
Definition pick (c0 : coord) (r s t : R) : R := match c0 with cX => r | cY => s | cZ => t end.

Lemma crazy_formula : forall cc bd c0 r s t,
  crazy_map cc bd c0 r s t = len_of bd c0 * (pick c0 r s t + cc / 2 * S3 r s t) + lo_of bd c0.
Proof.
  intros cc [[[a b] [c d]] [e f]] c0 r s t. unfold crazy_map, S3.
  destruct (Req_EM_T cc 0) as [->|E]; destruct c0; cbn [len_of lo_of pick]; field.
Qed.
Lemma orth_formula : forall bd c0 r s t,
  orth_map bd c0 r s t = len_of bd c0 * pick c0 r s t + lo_of bd c0.
Proof. intros [[[a b] [c d]] [e f]] c0 r s t. destruct c0; cbn [len_of lo_of pick]; reflexivity. Qed.

Lemma sin_0 : sin (2 * PI * 0) = 0. Proof. rewrite Rmult_0_r. apply sin_0. Qed.
Lemma sin_1 : sin (2 * PI * 1) = 0. Proof. rewrite Rmult_1_r. apply sin_2PI. Qed.

Lemma S3_boundary : forall r s t,
  r = 0 \/ r = 1 \/ s = 0 \/ s = 1 \/ t = 0 \/ t = 1 -> S3 r s t = 0.
Proof.
  intros r s t H. unfold S3. decompose [or] H; subst; rewrite ?sin_0, ?sin_1; ring.
Qed.
Lemma crazy_boundary : forall cc bd c0 r s t,
  r = 0 \/ r = 1 \/ s = 0 \/ s = 1 \/ t = 0 \/ t = 1 ->
  crazy_map cc bd c0 r s t = orth_map bd c0 r s t.
Proof.
  intros cc bd c0 r s t H. rewrite crazy_formula, orth_formula, (S3_boundary r s t H). ring.
Qed.

(* ---- determinant ---- *)
Definition T3 (r s t : R) : R :=
  cos (2 * PI * r) * sin (2 * PI * s) * sin (2 * PI * t) +
  sin (2 * PI * r) * cos (2 * PI * s) * sin (2 * PI * t) +
  sin (2 * PI * r) * sin (2 * PI * s) * cos (2 * PI * t).

Lemma crazy_det : forall cc bd r s t,
  interp_Jacobian (crazy_Jacobian_matrix cc bd r s t) =
  len_of bd cX * len_of bd cY * len_of bd cZ * (1 + cc * PI * T3 r s t).
Proof.
  intros cc [[[a b] [c d]] [e f]] r s t. unfold crazy_Jacobian_matrix, T3.
  destruct (Req_EM_T cc 0) as [->|E]; cbn [interp_Jacobian len_of]; field.
Qed.

Lemma angles_bound : forall x y z,
  (cos x * sin y * sin z + sin x * cos y * sin z + sin x * sin y * cos z) ^ 2 <= 4 / 3.
Proof.
  intros x y z.
  replace (cos x * sin y * sin z + sin x * cos y * sin z + sin x * sin y * cos z)
    with (cos x * (sin y * sin z) + sin x * sin (y + z)) by (rewrite sin_plus; ring).
  set (p := sin y * sin z). set (q := sin (y + z)).
  pose proof (sin2_cos2 x) as U. unfold Rsqr in U.
  pose proof (sin2_cos2 (y + z)) as V. unfold Rsqr in V. fold q in V.
  set (u := cos (y + z)) in *.
  assert (P : 2 * p = cos (y - z) - u) by (unfold p, u; rewrite cos_minus, cos_plus; ring).
  pose proof (COS_bound (y - z)) as B. set (w := cos (y - z)) in *.
  assert (H1 : (cos x * p + sin x * q) ^ 2 <= p * p + q * q).
  { assert (0 <= (cos x * q - sin x * p) ^ 2) by apply pow2_ge_0.
    assert (E : (cos x * p + sin x * q) ^ 2 + (cos x * q - sin x * p) ^ 2
            = (sin x * sin x + cos x * cos x) * (p * p + q * q)) by ring.
    rewrite U in E. lra. }
  assert (Q : q * q = 1 - u * u) by lra.
  assert (H2 : (2 * p) * (2 * p) <= 1 + 2 * Rabs u + u * u).
  { rewrite P. unfold Rabs. destruct (Rcase_abs u); nra. }
  pose proof (pow2_ge_0 (3 * Rabs u - 1)) as H3.
  assert (H4 : Rabs u * Rabs u = u * u) by (unfold Rabs; destruct (Rcase_abs u); ring).
  nra.
Qed.

Lemma T3_bound : forall r s t, T3 r s t ^ 2 <= 4 / 3.
Proof. intros. apply angles_bound. Qed.

Definition gentle (cc : R) : Prop := 4 * PI ^ 2 * cc ^ 2 < 3.

Lemma gentle_pos : forall cc r s t, gentle cc -> 0 < 1 + cc * PI * T3 r s t.
Proof.
  intros cc r s t G. unfold gentle in G. pose proof (T3_bound r s t) as B.
  set (x := T3 r s t) in *. set (k := cc * PI).
  assert (K : 4 * k ^ 2 < 3) by (unfold k; nra).
  assert (K2 : (k * x) ^ 2 < 1).
  { destruct (Req_dec k 0) as [-> | Hk]; [nra|].
    pose proof (Rsqr_pos_lt k Hk) as kp. unfold Rsqr in kp.
    replace ((k * x) ^ 2) with (k * k * x ^ 2) by ring. nra. }
  nra.
Qed.

Lemma steep_point : forall sg, sg = 1 \/ sg = -1 -> exists x, 0 <= x <= 1 / 2 /\
  sg * T3 x x x < 0 /\ T3 x x x ^ 2 = 4 / 3.
Proof.
  intros sg Hs. set (k := / sqrt 3).
  assert (S3p : 0 < sqrt 3) by (apply sqrt_lt_R0; lra).
  assert (kp : 0 < k) by (apply Rinv_0_lt_compat; exact S3p).
  assert (kk : k * k = / 3).
  { unfold k. rewrite <- Rinv_mult. rewrite sqrt_sqrt by lra. reflexivity. }
  assert (k1 : k <= 1) by nra.
  pose proof PI_RGT_0 as Pp.
  set (al := acos (- sg * k)).
  assert (B : -1 <= - sg * k <= 1) by (destruct Hs as [->| ->]; lra).
  pose proof (acos_bound (- sg * k)) as A. fold al in A.
  assert (C : cos al = - sg * k) by (apply cos_acos; exact B).
  exists (al / (2 * PI)).
  assert (E : 2 * PI * (al / (2 * PI)) = al) by (field; lra).
  assert (Q : sin al * sin al = 2 / 3).
  { pose proof (sin2_cos2 al) as U. unfold Rsqr in U. rewrite C in U.
    destruct Hs as [-> | ->]; lra. }
  assert (F : T3 (al / (2 * PI)) (al / (2 * PI)) (al / (2 * PI)) = 2 * (- sg * k)).
  { unfold T3. rewrite E, C.
    replace (- sg * k * sin al * sin al + sin al * (- sg * k) * sin al + sin al * sin al * (- sg * k))
      with (3 * (- sg * k) * (sin al * sin al)) by ring. rewrite Q. field. }
  split; [|split].
  - split.
    + apply Rmult_le_pos; [lra | left; apply Rinv_0_lt_compat; lra].
    + apply (Rmult_le_reg_r (2 * PI)); [lra|]. unfold Rdiv.
      rewrite Rmult_assoc, Rinv_l by lra. lra.
  - rewrite F. destruct Hs as [->| ->]; lra.
  - rewrite F. destruct Hs as [->| ->]; nra.
Qed.

(* some point of the diagonal has 1 + cc PI T3 = 1 - |cc| 2 PI / sqrt 3 *)
Lemma steep : forall cc, cc <> 0 -> exists x, 0 <= x <= 1 / 2 /\
  cc * PI * T3 x x x < 0 /\ (cc * PI * T3 x x x) ^ 2 = 4 / 3 * (PI ^ 2 * cc ^ 2).
Proof.
  intros cc H. pose proof PI_RGT_0 as Pp.
  destruct (Rlt_dec 0 cc) as [L|L].
  - destruct (steep_point 1 (or_introl eq_refl)) as (x & X & Y & Z). exists x. split; [exact X|].
    split; [|rewrite !Rpow_mult_distr, Z; ring].
    assert (0 < cc * PI) by (apply Rmult_lt_0_compat; lra). nra.
  - destruct (steep_point (-1) (or_intror eq_refl)) as (x & X & Y & Z). exists x. split; [exact X|].
    split; [|rewrite !Rpow_mult_distr, Z; ring].
    assert (0 < (- cc) * PI) by (apply Rmult_lt_0_compat; lra). nra.
Qed.

Lemma crazy_positive_iff : forall cc bd, 0 < len_of bd cX -> 0 < len_of bd cY -> 0 < len_of bd cZ ->
  ((forall r s t, incube r s t -> 0 < interp_Jacobian (crazy_Jacobian_matrix cc bd r s t)) <-> gentle cc).
Proof.
  intros cc bd Hx Hy Hz.
  assert (V : 0 < len_of bd cX * len_of bd cY * len_of bd cZ)
    by (repeat apply Rmult_lt_0_compat; assumption).
  split.
  - intro H. unfold gentle. apply Rnot_le_lt. intro G.
    assert (N : cc <> 0) by (intros ->; lra).
    destruct (steep cc N) as (x & X & Y & Z).
    assert (I : incube x x x) by (unfold incube, in01; repeat split; lra).
    specialize (H x x x I). rewrite crazy_det in H.
    assert (0 < 1 + cc * PI * T3 x x x).
    { apply (Rmult_lt_reg_l (len_of bd cX * len_of bd cY * len_of bd cZ)); [exact V|]. lra. }
    nra.
  - intros G r s t _. rewrite crazy_det. apply Rmult_lt_0_compat; [exact V|].
    apply gentle_pos; exact G.
Qed.

(* ---- along a line in the direction (1, 1, 1) ---- *)
Definition phi (cc r s t x : R) : R := x + cc / 2 * S3 (r + x) (s + x) (t + x).

Lemma sin2s_lim : forall r x,
  derivable_pt_lim (fun y => sin (2 * PI * (r + y))) x (2 * PI * cos (2 * PI * (r + x))).
Proof.
  intros r x. replace (2 * PI * cos (2 * PI * (r + x))) with (2 * PI * cos (2 * PI * (r + x)) * 1) by ring.
  apply (derivable_pt_lim_comp (fun y => r + y) (fun y => sin (2 * PI * y))).
  - apply (lim_ext' (fun y => r + 1 * y)); [intro; ring | apply affine_lim].
  - apply sin2_lim.
Qed.

Lemma S3_lim : forall r s t x,
  derivable_pt_lim (fun y => S3 (r + y) (s + y) (t + y)) x (2 * PI * T3 (r + x) (s + x) (t + x)).
Proof.
  intros r s t x.
  pose proof (derivable_pt_lim_mult _ _ x _ _
    (derivable_pt_lim_mult _ _ x _ _ (sin2s_lim r x) (sin2s_lim s x)) (sin2s_lim t x)) as D.
  unfold mult_fct in D. unfold S3.
  match type of D with derivable_pt_lim _ _ ?l => replace (2 * PI * T3 (r + x) (s + x) (t + x)) with l end.
  - exact D.
  - unfold T3. ring.
Qed.

Lemma phi_lim : forall cc r s t x,
  derivable_pt_lim (phi cc r s t) x (1 + cc * PI * T3 (r + x) (s + x) (t + x)).
Proof.
  intros cc r s t x. unfold phi.
  apply (lim_ext' (fun y => 0 + 1 * y + cc / 2 * (fun y => S3 (r + y) (s + y) (t + y)) y)); [intro; ring|].
  apply (one_term 0 1 (cc / 2) _ (2 * PI * T3 (r + x) (s + x) (t + x))); [apply S3_lim | field].
Qed.

Lemma lim_mono : forall (f df : R -> R), (forall x, derivable_pt_lim f x (df x)) ->
  (forall x, 0 < df x) -> forall x y, x < y -> f x < f y.
Proof.
  intros f df D P x y L.
  destruct (MVT_cor2 f df x y L (fun c _ => D c)) as (c & E & _).
  assert (0 < df c * (y - x)) by (apply Rmult_lt_0_compat; [apply P | lra]). lra.
Qed.

Lemma lim_cont : forall (f df : R -> R), (forall x, derivable_pt_lim f x (df x)) -> continuity f.
Proof.
  intros f df D x. apply derivable_continuous_pt. exists (df x). apply D.
Qed.

Lemma phi_mono : forall cc r s t, gentle cc -> forall x y, x < y -> phi cc r s t x < phi cc r s t y.
Proof.
  intros cc r s t G. apply (lim_mono _ _ (phi_lim cc r s t)). intro x. apply gentle_pos; exact G.
Qed.

Lemma crazy_one_to_one : forall cc bd, len_of bd cX <> 0 -> len_of bd cY <> 0 -> len_of bd cZ <> 0 ->
  gentle cc -> one_to_one (crazy_map cc bd).
Proof.
  intros cc bd Hx Hy Hz G r s t r' s' t' _ _ E.
  pose proof (E cX) as Ex; pose proof (E cY) as Ey; pose proof (E cZ) as Ez; clear E.
  rewrite !crazy_formula in Ex, Ey, Ez. cbn [pick] in Ex, Ey, Ez.
  apply Rplus_eq_reg_r, Rmult_eq_reg_l in Ex; [|assumption].
  apply Rplus_eq_reg_r, Rmult_eq_reg_l in Ey; [|assumption].
  apply Rplus_eq_reg_r, Rmult_eq_reg_l in Ez; [|assumption].
  assert (exists d, s' = s + d /\ t' = t + d /\ r' = r + d) as (d & -> & -> & ->)
    by (exists (r' - r); lra).
  assert (phi cc r s t 0 = phi cc r s t d) by (unfold phi; rewrite !Rplus_0_r; lra).
  destruct (Rtotal_order 0 d) as [L|[L|L]].
  - pose proof (phi_mono cc r s t G 0 d L); lra.
  - rewrite <- L, !Rplus_0_r; auto.
  - pose proof (phi_mono cc r s t G d 0 L); lra.
Qed.

Lemma ivt : forall (f : R -> R) x y v, continuity f -> x <= y -> f x <= v <= f y ->
  exists z, x <= z <= y /\ f z = v.
Proof.
  intros f x y v C L V.
  destruct (Req_dec (f x) v) as [E|N]; [exists x; split; [lra|exact E]|].
  destruct (Req_dec (f y) v) as [E|N']; [exists y; split; [lra|exact E]|].
  assert (L' : x < y) by (destruct (Req_dec x y) as [->|]; lra).
  destruct (IVT (fun z => f z - v) x y) as (z & Z & E); try lra.
  - apply (continuity_minus f (fun _ => v)); [exact C|]. apply continuity_const. intros ? ?; reflexivity.
  - exists z; split; [exact Z | lra].
Qed.

Definition min3 (a b c : R) := Rmin a (Rmin b c).
Lemma min3_spec : forall a b c, min3 a b c <= a /\ min3 a b c <= b /\ min3 a b c <= c /\
  (min3 a b c = a \/ min3 a b c = b \/ min3 a b c = c).
Proof. intros. unfold min3, Rmin. repeat destruct Rle_dec; repeat split; lra. Qed.

(* the image of the cube: onto for any cc, into for gentle cc *)
Lemma line_onto : forall cc x y z, incube x y z -> exists r s t, incube r s t /\
  r + cc / 2 * S3 r s t = x /\ s + cc / 2 * S3 r s t = y /\ t + cc / 2 * S3 r s t = z.
Proof.
  intros cc x y z (X & Y & Z).
  pose proof (min3_spec x y z) as (A1 & A2 & A3 & A4). set (m := min3 x y z) in *.
  pose proof (min3_spec (1 - x) (1 - y) (1 - z)) as (B1 & B2 & B3 & B4).
  set (n := min3 (1 - x) (1 - y) (1 - z)) in *. unfold in01 in *.
  assert (Z0 : S3 (x + - m) (y + - m) (z + - m) = 0).
  { apply S3_boundary. decompose [or] A4; lra. }
  assert (Z1 : S3 (x + n) (y + n) (z + n) = 0).
  { apply S3_boundary. decompose [or] B4; lra. }
  destruct (ivt (phi cc x y z) (- m) n 0) as (d & D & E).
  - apply (lim_cont _ _ (phi_lim cc x y z)).
  - decompose [or] A4; decompose [or] B4; lra.
  - unfold phi. rewrite Z0, Z1. decompose [or] A4; decompose [or] B4; lra.
  - exists (x + d), (y + d), (z + d). unfold phi in E. unfold incube, in01. repeat split; lra.
Qed.

Lemma line_into : forall cc r s t, gentle cc -> incube r s t ->
  incube (r + cc / 2 * S3 r s t) (s + cc / 2 * S3 r s t) (t + cc / 2 * S3 r s t).
Proof.
  intros cc x y z G (X & Y & Z).
  pose proof (min3_spec x y z) as (A1 & A2 & A3 & A4). set (m := min3 x y z) in *.
  pose proof (min3_spec (1 - x) (1 - y) (1 - z)) as (B1 & B2 & B3 & B4).
  set (n := min3 (1 - x) (1 - y) (1 - z)) in *. unfold in01 in *.
  assert (Z0 : S3 (x + - m) (y + - m) (z + - m) = 0).
  { apply S3_boundary. decompose [or] A4; lra. }
  assert (Z1 : S3 (x + n) (y + n) (z + n) = 0).
  { apply S3_boundary. decompose [or] B4; lra. }
  assert (M : 0 <= m) by (decompose [or] A4; lra). assert (N : 0 <= n) by (decompose [or] B4; lra).
  assert (P0 : phi cc x y z (- m) <= phi cc x y z 0).
  { destruct (Req_dec m 0) as [->|]; [rewrite Ropp_0; lra|].
    left; apply phi_mono; [exact G | lra]. }
  assert (P1 : phi cc x y z 0 <= phi cc x y z n).
  { destruct (Req_dec n 0) as [->|]; [lra|]. left; apply phi_mono; [exact G | lra]. }
  unfold phi in P0, P1. rewrite Z0 in P0. rewrite Z1 in P1. rewrite !Rplus_0_r in P0, P1.
  unfold incube, in01. repeat split; lra.
Qed.

Lemma crazy_image : forall cc bd, 0 < len_of bd cX -> 0 < len_of bd cY -> 0 < len_of bd cZ ->
  gentle cc -> has_image (crazy_map cc bd) (fun x y z =>
    lo_of bd cX <= x <= lo_of bd cX + len_of bd cX /\
    lo_of bd cY <= y <= lo_of bd cY + len_of bd cY /\
    lo_of bd cZ <= z <= lo_of bd cZ + len_of bd cZ).
Proof.
  intros cc bd Hx Hy Hz G x y z.
  assert (Q : forall l o v, 0 < l -> (o <= v <= o + l <-> in01 ((v - o) / l)) /\ l * ((v - o) / l) + o = v).
  { intros l o v L. split; [|field; lra]. unfold in01.
    assert (E : v - o = l * ((v - o) / l)) by (field; lra).
    set (q := (v - o) / l) in *. split; intro H; split; nra. }
  destruct (Q _ (lo_of bd cX) x Hx) as (Qx & Vx). destruct (Q _ (lo_of bd cY) y Hy) as (Qy & Vy).
  destruct (Q _ (lo_of bd cZ) z Hz) as (Qz & Vz). split.
  - intros (X & Y & Z). apply Qx in X. apply Qy in Y. apply Qz in Z.
    destruct (line_onto cc _ _ _ (conj X (conj Y Z))) as (r & s & t & I & Er & Es & Et).
    exists r, s, t. split; [exact I|]. rewrite !crazy_formula. cbn [pick]. rewrite Er, Es, Et. auto.
  - intros (r & s & t & I & <- & <- & <-). rewrite !crazy_formula. cbn [pick].
    destruct (line_into cc r s t G I) as (X & Y & Z). unfold in01 in X, Y, Z. repeat split; nra.
Qed.

(* ---- folding ---- *)
Lemma folds : forall (f df : R -> R), (forall x, derivable_pt_lim f x (df x)) ->
  f 0 = 0 -> f 1 = 1 -> (exists x, 0 <= x < 1 /\ df x < 0) ->
  exists x y, 0 <= x <= 1 /\ 0 <= y <= 1 /\ x <> y /\ f x = f y.
Proof.
  intros f df D F0 F1 (x & X & N).
  pose proof (lim_cont f df D) as C.
  destruct (D x (- df x / 2)) as (del & H); [lra|].
  set (h := Rmin (del / 2) ((1 - x) / 2)).
  pose proof (cond_pos del) as dp.
  assert (h0 : 0 < h) by (unfold h; apply Rmin_glb_lt; lra).
  assert (h1 : h <= del / 2) by apply Rmin_l. assert (h2 : h <= (1 - x) / 2) by apply Rmin_r.
  assert (L : f (x + h) < f x).
  { specialize (H h). assert (h <> 0) by lra. assert (Rabs h < del) by (rewrite Rabs_right; lra).
    specialize (H ltac:(assumption) ltac:(assumption)).
    apply Rabs_def2 in H. destruct H as (H & _).
    assert (q : (f (x + h) - f x) / h < df x / 2) by lra.
    assert (E : f (x + h) - f x = h * ((f (x + h) - f x) / h)) by (field; lra).
    set (w := (f (x + h) - f x) / h) in *. nra. }
  destruct (Rle_dec (f x) 1) as [U|U].
  - destruct (ivt f (x + h) 1 (f x) C) as (y & Y & E); [lra|lra|].
    exists x, y. repeat split; try lra. 
  - destruct (ivt f 0 x 1 C) as (y & Y & E); [lra|lra|].
    exists y, 1. repeat split; lra.
Qed.

Lemma crazy_folds : forall cc bd, 3 < 4 * PI ^ 2 * cc ^ 2 -> ~ one_to_one (crazy_map cc bd).
Proof.
  intros cc bd G H. assert (N : cc <> 0) by (intros ->; lra).
  destruct (steep cc N) as (x & X & Y & Z).
  destruct (folds (phi cc 0 0 0) _ (phi_lim cc 0 0 0)) as (u & v & U & V & W & E).
  - unfold phi. rewrite Rplus_0_r, S3_boundary by auto. ring.
  - unfold phi. rewrite Rplus_0_l, S3_boundary by auto. ring.
  - exists x. split; [lra|]. rewrite !Rplus_0_l. nra.
  - assert (Iu : incube u u u) by (unfold incube, in01; lra).
    assert (Iv : incube v v v) by (unfold incube, in01; lra).
    destruct (H u u u v v v Iu Iv) as (Q & _); [|contradiction].
    intro c. rewrite !crazy_formula. unfold phi in E. rewrite !Rplus_0_l in E.
    destruct c; cbn [pick]; rewrite E; reflexivity.
Qed.

Lemma three_tenths : 3 < 4 * PI ^ 2 * (3 / 10) ^ 2.
Proof. assert (3 < PI) by (pose proof (PI_ineq 1) as H; pose proof PI2_3_2 as Q; unfold PI in *; lra). nra. Qed.
