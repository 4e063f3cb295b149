(* Proofs about Edge2Model: straight edges and arcs. *)
From Coq Require Import Reals Lra.
From Verif Require Import TfiModel TransModel TransSpec Edge2Model TfiSpec TfiProofs TfiProofs2.
Open Scope R_scope.

Lemma hypot_10 : hypot 1 0 = 1.
Proof. unfold hypot. replace (1 * 1 + 0 * 0) with 1 by ring. apply sqrt_1. Qed.

Lemma hypot_sq : forall x y, hypot x y * hypot x y = x * x + y * y.
Proof. intros. unfold hypot. apply sqrt_sqrt. nra. Qed.

Lemma angle_ok : forall o p, 0 < dist2 o (fst p) (snd p) ->
  hypot (fst p - fst o) (snd p - snd o) * cos (angle o p) = fst p - fst o /\
  hypot (fst p - fst o) (snd p - snd o) * sin (angle o p) = snd p - snd o /\
  0 <= angle o p < 2 * PI.
Proof.
  intros o p D. unfold angle, dist2 in *.
  set (x := fst p - fst o) in *. set (y := snd p - snd o) in *.
  rewrite hypot_10. replace (1 * x + 0 * y) with x by ring. rewrite Rmult_1_l.
  pose proof (hypot_sq x y) as HS. set (h := hypot x y) in *.
  assert (h0 : 0 <= h) by apply sqrt_pos. assert (hp : 0 < h) by nra.
  set (v := x / h). assert (X : x = h * v) by (unfold v; field; lra).
  assert (V2 : h * h * (1 - v * v) = y * y) by (rewrite X in HS; nra).
  assert (V : -1 <= v <= 1).
  { assert (0 < h * h) by nra. assert (0 <= 1 - v * v) by nra. split; nra. }
  pose proof (cos_acos v V) as C. pose proof (sin_acos v V) as S. unfold Rsqr in S.
  pose proof (acos_bound v) as A. pose proof PI_RGT_0 as P.
  assert (Y : h * sqrt (1 - v * v) = Rabs y).
  { rewrite <- (sqrt_Rsqr h) by lra. rewrite <- sqrt_mult_alt by (unfold Rsqr; nra).
    rewrite <- sqrt_Rsqr_abs. f_equal. unfold Rsqr. nra. }
  destruct (Rlt_dec y 0) as [L|L].
  - replace (2 * PI - acos v) with (- acos v + 2 * PI) by ring.
    assert (C2 : cos (- acos v + 2 * PI) = v).
    { rewrite cos_plus, cos_2PI, sin_2PI, cos_neg, C. ring. }
    assert (S2 : sin (- acos v + 2 * PI) = - sqrt (1 - v * v)).
    { rewrite sin_plus, cos_2PI, sin_2PI, sin_neg, S. ring. }
    rewrite C2, S2. rewrite Rabs_left in Y by exact L.
    assert (0 < acos v).
    { destruct (Req_dec (acos v) 0) as [Z|Z]; [|lra]. rewrite Z, sin_0 in S. rewrite <- S in Y. lra. }
    repeat split; lra.
  - rewrite C, S. rewrite Rabs_right in Y by lra. repeat split; lra.
Qed.

Lemma arc_r_hypot : forall c a, arc_r c a = hypot (fst a - fst c) (snd a - snd c).
Proof. intros. unfold arc_r, hypot. f_equal. ring. Qed.
Lemma same_r : forall c a b, dist2 c (fst a) (snd a) = dist2 c (fst b) (snd b) ->
  arc_r c a = hypot (fst b - fst c) (snd b - snd c).
Proof. intros c a b E. rewrite arc_r_hypot. unfold hypot, dist2 in *. rewrite E. reflexivity. Qed.

Lemma cos_turn : forall x, cos (x - 2 * PI) = cos x /\ sin (x - 2 * PI) = sin x /\
  cos (x + 2 * PI) = cos x /\ sin (x + 2 * PI) = sin x.
Proof.
  intro x. rewrite cos_minus, sin_minus, cos_plus, sin_plus, cos_2PI, sin_2PI. repeat split; ring.
Qed.

Lemma acw_end_ok : forall c a b, cos (acw_end c a b) = cos (angle c b) /\ sin (acw_end c a b) = sin (angle c b).
Proof.
  intros. unfold acw_end. destruct (Rlt_dec _ _); [|auto].
  destruct (cos_turn (angle c b)) as (A & B & _). auto.
Qed.
Lemma aacw_end_ok : forall c a b, cos (aacw_end c a b) = cos (angle c b) /\ sin (aacw_end c a b) = sin (angle c b).
Proof.
  intros. unfold aacw_end. destruct (Rlt_dec _ _); [|auto].
  destruct (cos_turn (angle c b)) as (_ & _ & A & B). auto.
Qed.

Lemma arc_ends : forall ctr a b th, dist2 ctr (fst a) (snd a) = dist2 ctr (fst b) (snd b) ->
  0 < dist2 ctr (fst a) (snd a) -> cos th = cos (angle ctr b) -> sin th = sin (angle ctr b) ->
  starts_at (arc ctr (arc_r ctr a) (start_theta ctr a) th) a /\
  ends_at (arc ctr (arc_r ctr a) (start_theta ctr a) th) b.
Proof.
  intros ctr a b th E P C S. unfold starts_at, ends_at, arc, start_theta. cbn [cx cy].
  rewrite !Rmult_0_l, !Rplus_0_l, !Rmult_1_l.
  replace (th - angle ctr a + angle ctr a) with th by ring. rewrite C, S.
  destruct (angle_ok ctr a P) as (A1 & A2 & _). rewrite <- arc_r_hypot in A1, A2.
  rewrite E in P. destruct (angle_ok ctr b P) as (B1 & B2 & _). rewrite <- (same_r _ _ _ E) in B1, B2.
  rewrite A1, A2, B1, B2. repeat split; ring.
Qed.

Lemma edge_ends : forall e a b, well_placed e a b ->
  starts_at (edge_curve e a b) a /\ ends_at (edge_curve e a b) b.
Proof.
  intros e a b W. destruct e as [|c|c].
  - unfold starts_at, ends_at, edge_curve, straight. cbn [cx cy]. repeat split; ring.
  - destruct W as (E & P). destruct (acw_end_ok c a b) as (C & S). apply (arc_ends c a b _ E P C S).
  - destruct W as (E & P). destruct (aacw_end_ok c a b) as (C & S). apply (arc_ends c a b _ E P C S).
Qed.

Lemma arc_derivative : forall ctr rad t0 t1, derivative_of (arc ctr rad t0 t1) (arc_o rad t0 t1).
Proof.
  intros ctr rad t0 t1.
  assert (L : forall t, derivable_pt_lim (fun o => o * (t1 - t0) + t0) t (t1 - t0)).
  { intro t. apply (lim_ext' (fun y => t0 + (t1 - t0) * y)); [intro; ring | apply affine_lim]. }
  split; intro t; unfold arc, arc_o; cbn [cx cy].
  - apply (lim_ext' (fun y => fst ctr + 0 * y + rad * (fun z => cos (z * (t1 - t0) + t0)) y)); [intro; ring|].
    replace (- rad * sin (t * (t1 - t0) + t0) * (t1 - t0))
      with (0 + (rad * ((- sin (t * (t1 - t0) + t0)) * (t1 - t0)) + 0)) by ring.
    apply (lim_ext' (fun y => fst ctr + 0 * y +
      comb (cons (rad, (fun z => cos (z * (t1 - t0) + t0)), (- sin (t * (t1 - t0) + t0)) * (t1 - t0)) nil) y));
      [intro; cbn [comb]; ring|].
    apply lim_comb. intros k u du [H|[]]. injection H as _ <- <-.
    apply (derivable_pt_lim_comp (fun z => z * (t1 - t0) + t0) cos); [apply L | apply derivable_pt_lim_cos].
  - replace (rad * cos (t * (t1 - t0) + t0) * (t1 - t0))
      with (0 + (rad * (cos (t * (t1 - t0) + t0) * (t1 - t0)) + 0)) by ring.
    apply (lim_ext' (fun y => snd ctr + 0 * y +
      comb (cons (rad, (fun z => sin (z * (t1 - t0) + t0)), cos (t * (t1 - t0) + t0) * (t1 - t0)) nil) y));
      [intro; cbn [comb]; ring|].
    apply lim_comb. intros k u du [H|[]]. injection H as _ <- <-.
    apply (derivable_pt_lim_comp (fun z => z * (t1 - t0) + t0) sin); [apply L | apply derivable_pt_lim_sin].
Qed.

Lemma edge_derivative : forall e a b, derivative_of (edge_curve e a b) (edge_curve_o e a b).
Proof.
  intros e a b. destruct e as [|c|c]; [|apply arc_derivative|apply arc_derivative].
  split; intro t; cbn [edge_curve edge_curve_o straight straight_o cx cy]; rewrite Rmult_1_r;
  match goal with |- derivable_pt_lim (fun o => ?p + o * ?q) _ _ =>
    apply (lim_ext' (fun y => p + q * y)); [intro; ring | apply affine_lim] end.
Qed.

(* constant distance from the centre *)
Lemma arc_circle : forall e c a b o, e = eACW c \/ e = eAACW c ->
  dist2 c (cx (edge_curve e a b) o) (cy (edge_curve e a b) o) = dist2 c (fst a) (snd a).
Proof.
  assert (H : forall c a th o, let k := arc c (arc_r c a) (start_theta c a) th in
    dist2 c (cx k o) (cy k o) = dist2 c (fst a) (snd a)).
  { intros c a th o k. unfold k, arc. cbn [cx cy]. set (v := o * _ + _).
    pose proof (sin2_cos2 v) as U. unfold Rsqr in U.
    unfold dist2. replace (_ * _ + _ * _) with
      (arc_r c a * arc_r c a * (sin v * sin v + cos v * cos v)) by ring.
    rewrite U, arc_r_hypot, hypot_sq. ring. }
  intros e c a b o [-> | ->]; apply H.
Qed.

(* the direction *)
Lemma arc_cross : forall ctr rad t0 t1 o,
  (cx (arc ctr rad t0 t1) o - fst ctr) * cy (arc_o rad t0 t1) o
  - (cy (arc ctr rad t0 t1) o - snd ctr) * cx (arc_o rad t0 t1) o = rad * rad * (t1 - t0).
Proof.
  intros. unfold arc, arc_o. cbn [cx cy]. set (v := o * _ + _).
  pose proof (sin2_cos2 v) as U. unfold Rsqr in U.
  replace (_ - _) with (rad * rad * (t1 - t0) * (sin v * sin v + cos v * cos v)) by ring.
  rewrite U. ring.
Qed.

Lemma acw_turns : forall c a b, well_placed (eACW c) a b -> (a <> b) ->
  exists w, 0 < w < 2 * PI /\ forall o, spin c (edge_curve (eACW c) a b) (edge_curve_o (eACW c) a b) o
    = - (dist2 c (fst a) (snd a) * w).
Proof.
  intros c a b (E & P) N. 
  destruct (angle_ok c a P) as (A1 & A2 & A3). pose proof P as P'. rewrite E in P'.
  destruct (angle_ok c b P') as (B1 & B2 & B3).
  exists (angle c a - acw_end c a b). split.
  - assert (angle c a <> angle c b).
    { intro Q. apply N. rewrite Q in A1, A2.
      assert (H : hypot (fst a - fst c) (snd a - snd c) = hypot (fst b - fst c) (snd b - snd c))
        by (rewrite <- arc_r_hypot; apply same_r; exact E).
      rewrite H in A1, A2. destruct a as [a1 a2], b as [b1 b2]; cbn [fst snd] in *. f_equal; lra. }
    unfold acw_end. destruct (Rlt_dec _ _); lra.
  - intro o. unfold spin. cbn [edge_curve edge_curve_o]. rewrite arc_cross.
    rewrite arc_r_hypot, hypot_sq. unfold dist2, start_theta. ring.
Qed.

Lemma aacw_turns : forall c a b, well_placed (eAACW c) a b -> (a <> b) ->
  exists w, 0 < w < 2 * PI /\ forall o, spin c (edge_curve (eAACW c) a b) (edge_curve_o (eAACW c) a b) o
    = dist2 c (fst a) (snd a) * w.
Proof.
  intros c a b (E & P) N. 
  destruct (angle_ok c a P) as (A1 & A2 & A3). pose proof P as P'. rewrite E in P'.
  destruct (angle_ok c b P') as (B1 & B2 & B3).
  exists (aacw_end c a b - angle c a). split.
  - assert (angle c a <> angle c b).
    { intro Q. apply N. rewrite Q in A1, A2.
      assert (H : hypot (fst a - fst c) (snd a - snd c) = hypot (fst b - fst c) (snd b - snd c))
        by (rewrite <- arc_r_hypot; apply same_r; exact E).
      rewrite H in A1, A2. destruct a as [a1 a2], b as [b1 b2]; cbn [fst snd] in *. f_equal; lra. }
    unfold aacw_end. destruct (Rlt_dec _ _); lra.
  - intro o. unfold spin. cbn [edge_curve edge_curve_o]. rewrite arc_cross.
    rewrite arc_r_hypot, hypot_sq. unfold dist2, start_theta. ring.
Qed.

(* the four edges of a region fit *)
Lemma region2_meet : forall g, region_well_placed g -> meet (region2_transfinite g).
Proof.
  intros g (U & D & L & Q).
  destruct (edge_ends _ _ _ U) as ((u1 & u2) & (u3 & u4)).
  destruct (edge_ends _ _ _ D) as ((a1 & a2) & (a3 & a4)).
  destruct (edge_ends _ _ _ L) as ((l1 & l2) & (l3 & l4)).
  destruct (edge_ends _ _ _ Q) as ((q1 & q2) & (q3 & q4)).
  unfold meet, region2_transfinite. cbn [g0 g1 g2 g3]. unfold edge_U, edge_D, edge_L, edge_R.
  repeat split; congruence.
Qed.
Lemma region2_derivatives : forall g, derivatives (region2_transfinite g).
Proof.
  intro g. unfold derivatives, region2_transfinite. cbn [g0 g1 g2 g3 d0 d1 d2 d3].
  repeat split; apply edge_derivative.
Qed.
