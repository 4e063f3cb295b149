(* Proofs about TfiModel: the crazy map in 2D, the volume of a region. *)
From Coq Require Import Reals List Lra Lia.
From Verif Require Import TfiModel TransModel Edge2Model TfiSpec TfiProofs TfiProofs2 TfiProofs3.
Import ListNotations.
Open Scope R_scope.

Definition S2 (r s : R) := sin (2 * PI * r) * sin (2 * PI * s).
Definition lo2 (bd : (R * R) * (R * R)) (i : bool) : R :=
  match bd with ((a, b), (c, d)) => if i then c else a end.
Definition len2 (bd : (R * R) * (R * R)) (i : bool) : R :=
  match bd with ((a, b), (c, d)) => if i then d - c else b - a end.
Definition pick2 (i : bool) (r s : R) : R := if i then s else r.

Lemma crazy2_formula : forall cc bd i r s,
  crazy2_map cc bd i r s = len2 bd i * (pick2 i r s + cc / 2 * S2 r s) + lo2 bd i.
Proof. intros cc [[a b] [c d]] i r s. unfold S2. destruct i; cbn [crazy2_map len2 lo2 pick2]; field. Qed.

Lemma S2_boundary : forall r s, r = 0 \/ r = 1 \/ s = 0 \/ s = 1 -> S2 r s = 0.
Proof. intros r s H. unfold S2. decompose [or] H; subst; rewrite ?sin_0, ?sin_1; ring. Qed.

Lemma crazy2_boundary : forall cc bd i r s, r = 0 \/ r = 1 \/ s = 0 \/ s = 1 ->
  crazy2_map cc bd i r s = len2 bd i * pick2 i r s + lo2 bd i.
Proof. intros cc bd i r s H. rewrite crazy2_formula, (S2_boundary r s H). ring. Qed.

Lemma crazy2_det : forall cc bd r s,
  det2 (crazy2_Jacobian_matrix cc bd r s) =
  len2 bd false * len2 bd true * (1 + cc * PI * sin (2 * PI * (r + s))).
Proof.
  intros cc [[a b] [c d]] r s. rewrite (Rmult_plus_distr_l (2 * PI) r), sin_plus.
  cbn [crazy2_Jacobian_matrix det2 len2]. field.
Qed.

Definition gentle2 (cc : R) : Prop := Rabs cc * PI < 1.

Lemma gentle2_pos : forall cc x, gentle2 cc -> 0 < 1 + cc * PI * sin x.
Proof.
  intros cc x G. unfold gentle2 in G. pose proof (SIN_bound x) as B. pose proof PI_RGT_0 as P.
  set (k := cc * PI). assert (K : -1 < k < 1).
  { unfold k. unfold Rabs in G. destruct (Rcase_abs cc); split; nra. }
  set (w := sin x) in *. fold k. destruct (Rle_dec 0 k); nra.
Qed.

(* 3/8 or 1/8 of the diagonal *)
Lemma steep2 : forall cc, exists x, 0 <= x <= 1 / 2 /\
  cc * PI * sin (2 * PI * (x + x)) = - (Rabs cc * PI).
Proof.
  intro cc. unfold Rabs. destruct (Rcase_abs cc) as [L|L].
  - exists (1 / 8). split; [lra|]. replace (2 * PI * (1 / 8 + 1 / 8)) with (PI / 2) by field.
    rewrite sin_PI2. ring.
  - exists (3 / 8). split; [lra|]. replace (2 * PI * (3 / 8 + 3 / 8)) with (3 * (PI / 2)) by field.
    rewrite sin_3PI2. ring.
Qed.

Lemma crazy2_positive_iff : forall cc bd, 0 < len2 bd false -> 0 < len2 bd true ->
  ((forall r s, insquare r s -> 0 < det2 (crazy2_Jacobian_matrix cc bd r s)) <-> gentle2 cc).
Proof.
  intros cc bd Hx Hy.
  assert (V : 0 < len2 bd false * len2 bd true) by (apply Rmult_lt_0_compat; assumption).
  split.
  - intro H. destruct (steep2 cc) as (x & X & E).
    assert (Q : insquare x x) by (unfold insquare, in01; lra).
    specialize (H x x Q). rewrite crazy2_det, E in H. unfold gentle2. nra.
  - intros G r s _. rewrite crazy2_det. apply Rmult_lt_0_compat; [exact V|]. apply gentle2_pos; exact G.
Qed.

Definition phi2 (cc r s x : R) : R := x + cc / 2 * S2 (r + x) (s + x).
Lemma phi2_lim : forall cc r s x,
  derivable_pt_lim (phi2 cc r s) x (1 + cc * PI * sin (2 * PI * ((r + x) + (s + x)))).
Proof.
  intros cc r s x. unfold phi2.
  apply (lim_ext' (fun y => 0 + 1 * y + cc / 2 * (fun y => S2 (r + y) (s + y)) y)); [intro; ring|].
  apply (one_term 0 1 (cc / 2) _ (2 * PI * sin (2 * PI * ((r + x) + (s + x))))); [|field].
  pose proof (derivable_pt_lim_mult _ _ x _ _ (sin2s_lim r x) (sin2s_lim s x)) as D.
  unfold mult_fct in D. unfold S2.
  match type of D with derivable_pt_lim _ _ ?l => replace (2 * PI * sin (2 * PI * ((r + x) + (s + x)))) with l end.
  - exact D.
  - rewrite (Rmult_plus_distr_l (2 * PI) (r + x)), sin_plus. ring.
Qed.
Lemma phi2_mono : forall cc r s, gentle2 cc -> forall x y, x < y -> phi2 cc r s x < phi2 cc r s y.
Proof.
  intros cc r s G. apply (lim_mono _ _ (phi2_lim cc r s)). intro x. apply gentle2_pos; exact G.
Qed.

Lemma crazy2_one_to_one : forall cc bd, len2 bd false <> 0 -> len2 bd true <> 0 ->
  gentle2 cc -> one_to_one2 (crazy2_map cc bd).
Proof.
  intros cc bd Hx Hy G r s r' s' _ _ E.
  pose proof (E false) as Ex; pose proof (E true) as Ey; clear E.
  rewrite !crazy2_formula in Ex, Ey. cbn [pick2] in Ex, Ey.
  apply Rplus_eq_reg_r, Rmult_eq_reg_l in Ex; [|assumption].
  apply Rplus_eq_reg_r, Rmult_eq_reg_l in Ey; [|assumption].
  assert (exists d, s' = s + d /\ r' = r + d) as (d & -> & ->) by (exists (r' - r); lra).
  assert (phi2 cc r s 0 = phi2 cc r s d) by (unfold phi2; rewrite !Rplus_0_r; lra).
  destruct (Rtotal_order 0 d) as [L|[L|L]].
  - pose proof (phi2_mono cc r s G 0 d L); lra.
  - rewrite <- L, !Rplus_0_r; auto.
  - pose proof (phi2_mono cc r s G d 0 L); lra.
Qed.

Lemma min2_spec : forall a b, Rmin a b <= a /\ Rmin a b <= b /\ (Rmin a b = a \/ Rmin a b = b).
Proof. intros. unfold Rmin. destruct Rle_dec; repeat split; lra. Qed.

Lemma line2 : forall cc x y, insquare x y ->
  (exists r s, insquare r s /\ r + cc / 2 * S2 r s = x /\ s + cc / 2 * S2 r s = y) /\
  (gentle2 cc -> insquare (x + cc / 2 * S2 x y) (y + cc / 2 * S2 x y)).
Proof.
  intros cc x y (X & Y).
  pose proof (min2_spec x y) as (A1 & A2 & A4). set (m := Rmin x y) in *.
  pose proof (min2_spec (1 - x) (1 - y)) as (B1 & B2 & B4).
  set (n := Rmin (1 - x) (1 - y)) in *. unfold in01 in *.
  assert (Z0 : S2 (x + - m) (y + - m) = 0).
  { apply S2_boundary. decompose [or] A4; lra. }
  assert (Z1 : S2 (x + n) (y + n) = 0).
  { apply S2_boundary. decompose [or] B4; lra. }
  assert (M : 0 <= m) by (decompose [or] A4; lra). assert (N : 0 <= n) by (decompose [or] B4; lra).
  split.
  - destruct (ivt (phi2 cc x y) (- m) n 0) as (d & D & E).
    + apply (lim_cont _ _ (phi2_lim cc x y)).
    + lra.
    + unfold phi2. rewrite Z0, Z1. lra.
    + exists (x + d), (y + d). unfold phi2 in E. unfold insquare, in01. repeat split; lra.
  - intro G.
    assert (P0 : phi2 cc x y (- m) <= phi2 cc x y 0).
    { destruct (Req_dec m 0) as [->|]; [rewrite Ropp_0; lra|].
      left; apply phi2_mono; [exact G | lra]. }
    assert (P1 : phi2 cc x y 0 <= phi2 cc x y n).
    { destruct (Req_dec n 0) as [->|]; [lra|]. left; apply phi2_mono; [exact G | lra]. }
    unfold phi2 in P0, P1. rewrite Z0 in P0. rewrite Z1 in P1. rewrite !Rplus_0_r in P0, P1.
    unfold insquare, in01. repeat split; lra.
Qed.

Lemma crazy2_image : forall cc bd, 0 < len2 bd false -> 0 < len2 bd true ->
  gentle2 cc -> has_image2 (crazy2_map cc bd) (fun x y =>
    lo2 bd false <= x <= lo2 bd false + len2 bd false /\
    lo2 bd true <= y <= lo2 bd true + len2 bd true).
Proof.
  intros cc bd Hx Hy G x y.
  assert (Q : forall l o v, 0 < l -> (o <= v <= o + l <-> in01 ((v - o) / l)) /\ l * ((v - o) / l) + o = v).
  { intros l o v L. split; [|field; lra]. unfold in01.
    assert (E : v - o = l * ((v - o) / l)) by (field; lra).
    set (q := (v - o) / l) in *. split; intro H; split; nra. }
  destruct (Q _ (lo2 bd false) x Hx) as (Qx & Vx). destruct (Q _ (lo2 bd true) y Hy) as (Qy & Vy). split.
  - intros (X & Y). apply Qx in X. apply Qy in Y.
    destruct (line2 cc _ _ (conj X Y)) as ((r & s & W & Er & Es) & _).
    exists r, s. split; [exact W|]. rewrite !crazy2_formula. cbn [pick2]. rewrite Er, Es. auto.
  - intros (r & s & W & <- & <-). rewrite !crazy2_formula. cbn [pick2].
    destruct (proj2 (line2 cc r s W) G) as (X & Y). unfold in01 in X, Y. repeat split; nra.
Qed.

Lemma crazy2_folds : forall cc bd, 1 < Rabs cc * PI -> ~ one_to_one2 (crazy2_map cc bd).
Proof.
  intros cc bd G H. destruct (steep2 cc) as (x & X & E).
  destruct (folds (phi2 cc 0 0) _ (phi2_lim cc 0 0)) as (u & v & U & V & W & F).
  - unfold phi2. rewrite Rplus_0_r, S2_boundary by auto. ring.
  - unfold phi2. rewrite Rplus_0_l, S2_boundary by auto. ring.
  - exists x. split; [lra|]. rewrite !Rplus_0_l, E. lra.
  - assert (Iu : insquare u u) by (unfold insquare, in01; lra).
    assert (Iv : insquare v v) by (unfold insquare, in01; lra).
    destruct (H u u v v Iu Iv) as (Q & _); [|contradiction].
    intro c. rewrite !crazy2_formula. unfold phi2 in F. rewrite !Rplus_0_l in F.
    destruct c; cbn [pick2]; rewrite F; reflexivity.
Qed.

(* ---- the volume of a region ---- *)
Lemma qsum_lin : forall quad a b c d,
  qsum (fun x y z => a + b * x + c * y + d * z) quad =
  a * qsum (fun _ _ _ => 1) quad + b * qsum (fun x _ _ => x) quad
  + c * qsum (fun _ y _ => y) quad + d * qsum (fun _ _ z => z) quad.
Proof.
  intros quad a b c d. induction quad as [|[[[x y] z] w] l IH];
    unfold qsum in *; cbn [map rsum fold_right] in *; [ring|].
  unfold rsum in IH. rewrite IH. ring.
Qed.
Lemma qsum_ext : forall quad f h, (forall x y z, f x y z = h x y z) -> qsum f quad = qsum h quad.
Proof.
  intros quad f h E. unfold qsum. f_equal. apply map_ext. intros [[[x y] z] w]. rewrite E; reflexivity.
Qed.

Lemma volume_linear : forall quad J a b c d, exact_linear quad ->
  (forall x y z, interp_Jacobian (J x y z) = a + b * x + c * y + d * z) ->
  region_volume quad J = a.
Proof.
  intros quad J a b c d (Q1 & Qx & Qy & Qz) E. unfold region_volume.
  change (qsum (fun x y z => interp_Jacobian (J x y z)) quad / 8 = a).
  rewrite (qsum_ext _ _ _ E), qsum_lin, Q1, Qx, Qy, Qz. field.
Qed.

Lemma orth_volume : forall quad bd, exact_linear quad ->
  region_volume quad (orth_Jacobian_matrix bd) = len_of bd cX * len_of bd cY * len_of bd cZ.
Proof.
  intros quad [[[a b] [c d]] [e f]] Q.
  apply (volume_linear _ _ _ 0 0 0 Q). intros. cbn [orth_Jacobian_matrix interp_Jacobian len_of]. ring.
Qed.

(* a wedge with plane sides: y runs from 0 to 1 + x *)
Definition wedge : Corners :=
  mkCorners (0, 0, 0) (1, 0, 0) (0, 1, 0) (1, 2, 0) (0, 0, 1) (1, 0, 1) (0, 1, 1) (1, 2, 1).

Lemma wedge_map : forall r s t, tf_map (plane_sides wedge) cX r s t = r /\
  tf_map (plane_sides wedge) cY r s t = s * (1 + r) /\ tf_map (plane_sides wedge) cZ r s t = t.
Proof.
  intros. rewrite !plane_trilinear. unfold trilinear, rsum, bools.
  cbn [flat_map map app fold_right wgt corner wedge k0 k1 k2 k3 k4 k5 k6 k7 get]. repeat split; ring.
Qed.

Lemma wedge_det : forall r s t,
  interp_Jacobian (tf_Jacobian_matrix (plane_sides wedge) r s t) = 1 + r.
Proof.
  intros r s t.
  pose proof (tf_jacobian _ (plane_derivs wedge)) as D.
  assert (U : forall f x l l', derivable_pt_lim f x l -> derivable_pt_lim f x l' -> l = l')
    by (intros; eapply uniqueness_limite; eassumption).
  pose proof (D cX r s t) as (X1 & X2 & X3). pose proof (D cY r s t) as (Y1 & Y2 & Y3).
  pose proof (D cZ r s t) as (Z1 & Z2 & Z3).
  cbn [tf_Jacobian_matrix interp_Jacobian].
  assert (W : forall c a b x h l, derivable_pt_lim h x l -> (forall y, h y = a + b * y) -> c = b -> l = c).
  { intros c a b x h l H E ->. apply (U h x); [exact H|].
    apply (lim_ext' (fun y => a + b * y)); [intro; symmetry; apply E | apply affine_lim]. }
  rewrite (W 1 0 1 _ _ _ X1), (W 0 r 0 _ _ _ X2), (W 0 r 0 _ _ _ X3),
    (W s s s _ _ _ Y1), (W (1 + r) 0 (1 + r) _ _ _ Y2), (W 0 (s * (1 + r)) 0 _ _ _ Y3),
    (W 0 t 0 _ _ _ Z1), (W 0 t 0 _ _ _ Z2), (W 1 0 1 _ _ _ Z3);
    try reflexivity; try ring;
    intro y; pose proof (wedge_map y s t) as (? & ? & ?); pose proof (wedge_map r y t) as (? & ? & ?);
    pose proof (wedge_map r s y) as (? & ? & ?);
    first [rewrite (proj1 (wedge_map y s t)); ring | rewrite (proj1 (wedge_map r y t)); ring
      | rewrite (proj1 (wedge_map r s y)); ring
      | rewrite (proj1 (proj2 (wedge_map y s t))); ring | rewrite (proj1 (proj2 (wedge_map r y t))); ring
      | rewrite (proj1 (proj2 (wedge_map r s y))); ring
      | rewrite (proj2 (proj2 (wedge_map y s t))); ring | rewrite (proj2 (proj2 (wedge_map r y t))); ring
      | rewrite (proj2 (proj2 (wedge_map r s y))); ring].
Qed.

Lemma wedge_volume : forall quad, exact_linear quad ->
  region_volume quad (tf_Jacobian_matrix (plane_sides wedge)) = 1.
Proof.
  intros quad Q. apply (volume_linear _ _ 1 1 0 0 Q). intros. rewrite wedge_det. ring.
Qed.

(* the integral of 1 + r over [0,1] *)
Lemma wedge_integral : exists pr : Riemann_integrable (fun r => 1 + r) 0 1, RiemannInt pr = 3 / 2.
Proof.
  set (P := fun r => r + r * r / 2).
  assert (D : forall x, derivable_pt_lim P x (1 + x)).
  { intro x. unfold P.
    apply (lim_ext' (fun y => 0 + 1 * y + 1 / 2 * (fun z => z * z) y)); [intro; field|].
    apply (one_term 0 1 (1 / 2) (fun z => z * z) (1 * x + x * 1)); [|field].
    apply (derivable_pt_lim_mult id id); apply derivable_pt_lim_id. }
  assert (C : forall x, 0 <= x <= 1 -> continuity_pt (fun r => 1 + r) x).
  { intros x _. apply derivable_continuous_pt. exists 1.
    apply (lim_ext' (fun y => 1 + 1 * y)); [intro; ring | apply affine_lim]. }
  exists (continuity_implies_RiemannInt (Rle_0_1) C).
  assert (A : antiderivative (fun r => 1 + r) P 0 1).
  { split; [|apply Rle_0_1]. intros x _. exists (exist _ (1 + x) (D x) : derivable_pt P x). reflexivity. }
  pose proof (RiemannInt_P20 Rle_0_1 (FTC_P1 Rle_0_1 C)
    (continuity_implies_RiemannInt Rle_0_1 C)) as F.
  pose proof (RiemannInt_P29 Rle_0_1 C) as B.
  destruct (antiderivative_Ucte _ _ _ _ _ A B) as (k & E).
  rewrite F. assert (L0 : 0 <= 0 <= 1) by lra. assert (L1 : 0 <= 1 <= 1) by lra.
  pose proof (E 0 L0) as E0. pose proof (E 1 L1) as E1. unfold P in E0, E1. unfold primitive in *. lra.
Qed.

(* a rule with eight points *)
Definition gauss2 (x : R) : list (R * R * R * R) :=
  flat_map (fun a => flat_map (fun b => map (fun c => (a, b, c, 1)) [- x; x]) [- x; x]) [- x; x].
Lemma gauss2_exact : forall x, exact_linear (gauss2 x).
Proof. intro x. unfold exact_linear, qsum, rsum, gauss2. cbn. repeat split; ring. Qed.
