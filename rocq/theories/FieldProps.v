(** Properties of the numerical derivatives and of the vector operators. *)
From Coq Require Import Reals List Lra.
From Verif Require Import FieldModel FieldSpec FieldProofs FieldProofs2
  FieldProofs3 FieldExample.
Import ListNotations.
Open Scope R_scope.

(** C122: the numerical derivative is within [m h^2 / 6] of the derivative
    when the third derivative is bounded by [m]. *)
Theorem C122_error : forall (f f1 f2 f3 : R -> R) x h m, 0 < h ->
  (forall s, x - h <= s <= x + h -> derivable_pt_lim f s (f1 s)) ->
  (forall s, x - h <= s <= x + h -> derivable_pt_lim f1 s (f2 s)) ->
  (forall s, x - h <= s <= x + h -> derivable_pt_lim f2 s (f3 s)) ->
  (forall s, x - h <= s <= x + h -> Rabs (f3 s) <= m) ->
  Rabs (derivative f x h - f1 x) <= m * h ^ 2 / 6.
Proof. exact central_error. Qed.
Print Assumptions C122_error.

(** C122: the same for the partial derivatives of a field, whichever axis. *)
Theorem C122_partial3 : forall a f f1 f2 f3 m,
  is_partial3 a f f1 -> is_partial3 a f1 f2 -> is_partial3 a f2 f3 ->
  (forall t x y z, Rabs (f3 t x y z) <= m) ->
  forall t x y z,
  Rabs (scipy_partial3 f a t x y z - f1 t x y z) <= m * millionth ^ 2 / 6.
Proof. exact partial3_error. Qed.
Print Assumptions C122_partial3.

Theorem C122_partial2 : forall a f f1 f2 f3 m,
  is_partial2 a f f1 -> is_partial2 a f1 f2 -> is_partial2 a f2 f3 ->
  (forall t x y, Rabs (f3 t x y) <= m) ->
  forall t x y,
  Rabs (scipy_partial2 f a t x y - f1 t x y) <= m * millionth ^ 2 / 6.
Proof. exact partial2_error. Qed.
Print Assumptions C122_partial2.

(** C122: it is exact on polynomials of degree two, and on no cubic. *)
Theorem C122_cubic : forall a b c d x h, h <> 0 ->
  derivative (fun s => a * s ^ 3 + b * s ^ 2 + c * s + d) x h =
  3 * a * x ^ 2 + 2 * b * x + c + a * h ^ 2.
Proof. exact derivative_cubic. Qed.
Print Assumptions C122_cubic.

(** C122: a check accepts exactly when the errors are all below 1e-5, or the
    relative errors are; a formula it accepts is near the derivative. *)
Theorem C122_check : forall a func_p self_p,
  check_partial a func_p self_p = true <-> accepted a func_p self_p.
Proof. exact check_partial_iff. Qed.
Print Assumptions C122_check.

Theorem C122_check_sound : forall a (f f1 f2 f3 g : field3) m
    (points : list (R * R * R * R)) k,
  is_partial3 a f f1 -> is_partial3 a f1 f2 -> is_partial3 a f2 f3 ->
  (forall t x y z, Rabs (f3 t x y z) <= m) ->
  (forall t x y z, In (t, x, y, z) points ->
     Rabs (f1 t x y z) <= k /\ Rabs (g t x y z) <= k) ->
  check_partial a
    (map (fun '(t, x, y, z) => g t x y z) points)
    (map (fun '(t, x, y, z) => scipy_partial3 f a t x y z) points) = true ->
  forall t x y z, In (t, x, y, z) points ->
  Rabs (g t x y z - f1 t x y z) <
    1 / 100000 * Rmax 1 (k + m * millionth ^ 2 / 6)
    + m * millionth ^ 2 / 6.
Proof. exact check_sound. Qed.
Print Assumptions C122_check_sound.

Example C122_nonvacuous :
  (is_partial3 AX exsin excos /\ is_partial3 AX excos exmsin /\
   is_partial3 AX exmsin exmcos /\
   (forall t x y z, Rabs (exmcos t x y z) <= 1)) /\
  (is_partial2 BY exsin2 excos2 /\ is_partial2 BY excos2 exmsin2 /\
   is_partial2 BY exmsin2 exmcos2 /\
   (forall t x y, Rabs (exmcos2 t x y) <= 1)) /\
  Rabs (scipy_partial3 exsin AX 0 0 0 0 - 1) <= 1 * millionth ^ 2 / 6.
Proof.
  split; [exact exsin_partial|]. split; [exact exsin2_partial|].
  destruct exsin_partial as [H1 [H2 [H3 Hm]]].
  assert (E := C122_partial3 AX exsin excos exmsin exmcos 1 H1 H2 H3 Hm
    0 0 0 0). unfold excos at 1 in E. rewrite cos_0 in E. exact E.
Qed.

(** C123: the 3D operators succeed exactly on plain functions and methods,
    and then give the usual expressions in the central differences. *)
Theorem C123_gradient : forall s, plain3 s ->
  exists v, gradient3 s = Done v /\ plainv3 v /\
    same3 (call3 (v0 v)) (diff3 AX (call3 s)) /\
    same3 (call3 (v1 v)) (diff3 AY (call3 s)) /\
    same3 (call3 (v2 v)) (diff3 AZ (call3 s)).
Proof. exact gradient3_gives. Qed.
Print Assumptions C123_gradient.

Theorem C123_time : forall s, plain3 s ->
  exists c, stime3 s = Done c /\ plain3 c /\
    same3 (call3 c) (diff3 AT (call3 s)).
Proof. exact stime3_gives. Qed.
Print Assumptions C123_time.

Theorem C123_time_vector : forall v, plainv3 v ->
  exists w, vtime3 v = Done w /\ plainv3 w /\
    same3 (call3 (v0 w)) (diff3 AT (call3 (v0 v))) /\
    same3 (call3 (v1 w)) (diff3 AT (call3 (v1 v))) /\
    same3 (call3 (v2 w)) (diff3 AT (call3 (v2 v))).
Proof. exact vtime3_gives. Qed.
Print Assumptions C123_time_vector.

Theorem C123_divergence : forall v, plainv3 v ->
  gives3 (divergence3 v) (fun t x y z =>
    diff3 AX (call3 (v0 v)) t x y z + diff3 AY (call3 (v1 v)) t x y z
    + diff3 AZ (call3 (v2 v)) t x y z).
Proof. exact divergence3_gives. Qed.
Print Assumptions C123_divergence.

Theorem C123_curl : forall v, plainv3 v ->
  givesv3 (curl3 v)
    (fun t x y z => diff3 AY (call3 (v2 v)) t x y z
                    - diff3 AZ (call3 (v1 v)) t x y z)
    (fun t x y z => diff3 AZ (call3 (v0 v)) t x y z
                    - diff3 AX (call3 (v2 v)) t x y z)
    (fun t x y z => diff3 AX (call3 (v1 v)) t x y z
                    - diff3 AY (call3 (v0 v)) t x y z).
Proof. exact curl3_gives. Qed.
Print Assumptions C123_curl.

Theorem C123_convection : forall v u, plainv3 v ->
  givesv3 (vconvection3 v u) (along3 u (call3 (v0 v)))
    (along3 u (call3 (v1 v))) (along3 u (call3 (v2 v))).
Proof. exact vconvection3_gives. Qed.
Print Assumptions C123_convection.

Theorem C123_convection_scalar : forall s u, plain3 s ->
  gives3 (sconvection3 s u) (along3 u (call3 s)).
Proof. exact sconvection3_gives. Qed.
Print Assumptions C123_convection_scalar.

Theorem C123_accepted_gradient : forall s,
  (exists v, gradient3 s = Done v) <-> plain3 s.
Proof. exact gradient3_iff. Qed.
Print Assumptions C123_accepted_gradient.

Theorem C123_accepted_divergence : forall v,
  (exists c, divergence3 v = Done c) <-> plainv3 v.
Proof. exact divergence3_iff. Qed.
Print Assumptions C123_accepted_divergence.

Theorem C123_accepted_curl : forall v,
  (exists c, curl3 v = Done c) <-> plainv3 v.
Proof. exact curl3_iff. Qed.
Print Assumptions C123_accepted_curl.

(** C123: whatever the function, the numerical curl of its numerical
    gradient is exactly zero, and time and space derivatives commute. *)
Theorem C123_curl_gradient : forall s, plain3 s ->
  exists g, gradient3 s = Done g /\
    givesv3 (curl3 g) (fun _ _ _ _ => 0) (fun _ _ _ _ => 0)
      (fun _ _ _ _ => 0).
Proof. exact curl_gradient3. Qed.
Print Assumptions C123_curl_gradient.

Theorem C123_time_gradient : forall s, plain3 s ->
  exists g d w, gradient3 s = Done g /\ stime3 s = Done d /\
    gradient3 d = Done w /\
    givesv3 (vtime3 g) (call3 (v0 w)) (call3 (v1 w)) (call3 (v2 w)).
Proof. exact time_gradient3. Qed.
Print Assumptions C123_time_gradient.

Example C123_nonvacuous :
  plain3 exS /\ plainv3 exV /\ plainv3 exU /\
  diff3 AX (call3 exS) 1 3 5 7 = 30.
Proof.
  split; [left; split; reflexivity|].
  split; [repeat split; [left|right|left]; split; reflexivity|].
  split; [repeat split; left; split; reflexivity|].
  unfold diff3, central, line3, coordinate3, exS, exs, call3, millionth.
  field.
Qed.

(** C124: a field that was computed by any operator except a gradient or a
    time derivative can never be differentiated again in 3D: every such
    attempt raises NotImplementedError. The expected statement, that the
    divergence of a curl is computed (and zero), fails for every vector. *)
Theorem C124_composition_refuted :
  (forall a b : scalar3,
     stuck3 (sadd3 a b) /\ stuck3 (ssub3 a b) /\ stuck3 (sneg3 a) /\
     stuck3 (smul3 a b)) /\
  (forall a b : vector3,
     stuckv3 (vadd3 a b) /\ stuckv3 (vsub3 a b) /\ stuckv3 (vneg3 a) /\
     stuckv3 (cross3 a b) /\ stuck3 (dot3 a b)) /\
  (forall v u : vector3,
     (forall w, curl3 v = Done w -> stuckv3 w) /\
     (forall c, divergence3 v = Done c -> stuck3 c) /\
     (forall w, vconvection3 v u = Done w -> stuckv3 w) /\
     (forall s c, sconvection3 s u = Done c -> stuck3 c)).
Proof.
  exact (conj stuck_results3 (conj stuck_resultsv3 stuck_derived3)).
Qed.
Print Assumptions C124_composition_refuted.

Example C124_nonvacuous :
  (exists w, curl3 exV = Done w /\
     divergence3 w = Raised NotImplementedError) /\
  (exists c, divergence3 exV = Done c /\
     gradient3 c = Raised NotImplementedError).
Proof.
  split; eexists; split; reflexivity.
Qed.

(** C125: in 2D every callable may be differentiated, and so may every
    result. *)
Theorem C125_gradient : forall s, plain2 s ->
  exists v, gradient2 s = Done v /\ plainv2 v /\
    same2 (call2 (w0 v)) (diff2 BX (call2 s)) /\
    same2 (call2 (w1 v)) (diff2 BY (call2 s)).
Proof. exact gradient2_gives. Qed.
Print Assumptions C125_gradient.

Theorem C125_time : forall s, plain2 s ->
  exists c, stime2 s = Done c /\ plain2 c /\
    same2 (call2 c) (diff2 BT (call2 s)).
Proof. exact stime2_gives. Qed.
Print Assumptions C125_time.

Theorem C125_time_vector : forall v, plainv2 v ->
  exists w, vtime2 v = Done w /\ plainv2 w /\
    same2 (call2 (w0 w)) (diff2 BT (call2 (w0 v))) /\
    same2 (call2 (w1 w)) (diff2 BT (call2 (w1 v))).
Proof. exact vtime2_gives. Qed.
Print Assumptions C125_time_vector.

Theorem C125_curl : forall s, plain2 s ->
  exists v, curl2 s = Done v /\ plainv2 v /\
    same2 (call2 (w0 v)) (diff2 BY (call2 s)) /\
    same2 (call2 (w1 v)) (fun t x y => - diff2 BX (call2 s) t x y).
Proof. exact curl2_gives. Qed.
Print Assumptions C125_curl.

Theorem C125_divergence : forall v, plainv2 v ->
  exists c, divergence2 v = Done c /\ plain2 c /\
    same2 (call2 c) (fun t x y =>
      diff2 BX (call2 (w0 v)) t x y + diff2 BY (call2 (w1 v)) t x y).
Proof. exact divergence2_gives. Qed.
Print Assumptions C125_divergence.

Theorem C125_rot : forall v, plainv2 v ->
  exists c, rot2 v = Done c /\ plain2 c /\
    same2 (call2 c) (fun t x y =>
      diff2 BX (call2 (w1 v)) t x y - diff2 BY (call2 (w0 v)) t x y).
Proof. exact rot2_gives. Qed.
Print Assumptions C125_rot.

Theorem C125_convection : forall v u, plainv2 v ->
  exists c, vconvection2 v u = Done c /\ plainv2 c /\
    same2 (call2 (w0 c)) (along2 u (call2 (w0 v))) /\
    same2 (call2 (w1 c)) (along2 u (call2 (w1 v))).
Proof. exact vconvection2_gives. Qed.
Print Assumptions C125_convection.

Theorem C125_convection_scalar : forall s u, plain2 s ->
  exists c, sconvection2 s u = Done c /\ plain2 c /\
    same2 (call2 c) (along2 u (call2 s)).
Proof. exact sconvection2_gives. Qed.
Print Assumptions C125_convection_scalar.

(** C125: rot grad and div curl vanish exactly, rot curl is minus div
    grad. *)
Theorem C125_rot_gradient : forall s, plain2 s ->
  exists g, gradient2 s = Done g /\ gives2 (rot2 g) (fun _ _ _ => 0).
Proof. exact rot_gradient2. Qed.
Print Assumptions C125_rot_gradient.

Theorem C125_divergence_curl : forall s, plain2 s ->
  exists g, curl2 s = Done g /\ gives2 (divergence2 g) (fun _ _ _ => 0).
Proof. exact divergence_curl2. Qed.
Print Assumptions C125_divergence_curl.

Theorem C125_rot_curl : forall s, plain2 s ->
  exists c r g l, curl2 s = Done c /\ rot2 c = Done r /\
    gradient2 s = Done g /\ divergence2 g = Done l /\
    same2 (call2 r) (fun t x y => - call2 l t x y).
Proof. exact rot_curl2. Qed.
Print Assumptions C125_rot_curl.

Example C125_nonvacuous :
  plain2 ex2 /\ plainv2 exv2 /\ diff2 BY (call2 ex2) 1 3 5 = 9.
Proof.
  split; [left; split; reflexivity|].
  split; [split; [left; split|right; right]; reflexivity|].
  unfold diff2, central, line2, coordinate2, ex2, call2, millionth. field.
Qed.

(** C126: the dot product is the inner product; the cross product is the one
    vector whose product with any third vector is the determinant, so it is
    orthogonal to both factors, antisymmetric and obeys the identities of
    Lagrange and of the triple product. *)
Theorem C126_dot : forall a b t x y z,
  call3 (dot3 a b) t x y z = inner (at3 a t x y z) (at3 b t x y z).
Proof. exact dot3_inner. Qed.
Print Assumptions C126_dot.

Theorem C126_determinant : forall a b t x y z c,
  inner (at3 (cross3 a b) t x y z) c =
  determinant (at3 a t x y z) (at3 b t x y z) c.
Proof. exact cross3_determinant. Qed.
Print Assumptions C126_determinant.

Theorem C126_orthogonal : forall a b t x y z,
  call3 (dot3 a (cross3 a b)) t x y z = 0 /\
  call3 (dot3 b (cross3 a b)) t x y z = 0.
Proof. exact cross3_orthogonal. Qed.
Print Assumptions C126_orthogonal.

Theorem C126_antisymmetric : forall a b t x y z,
  at3 (cross3 a b) t x y z = at3 (vneg3 (cross3 b a)) t x y z.
Proof. exact cross3_antisymmetric. Qed.
Print Assumptions C126_antisymmetric.

Theorem C126_lagrange : forall a b t x y z,
  call3 (dot3 (cross3 a b) (cross3 a b)) t x y z =
  call3 (dot3 a a) t x y z * call3 (dot3 b b) t x y z
  - call3 (dot3 a b) t x y z * call3 (dot3 a b) t x y z.
Proof. exact cross3_lagrange. Qed.
Print Assumptions C126_lagrange.

Theorem C126_triple : forall a b c t x y z,
  at3 (cross3 a (cross3 b c)) t x y z =
  plus (scale (call3 (dot3 a c) t x y z) (at3 b t x y z))
       (scale (- call3 (dot3 a b) t x y z) (at3 c t x y z)).
Proof. exact cross3_triple. Qed.
Print Assumptions C126_triple.

Theorem C126_linear : forall a b t x y z,
  at3 (vadd3 a b) t x y z = plus (at3 a t x y z) (at3 b t x y z) /\
  at3 (vsub3 a b) t x y z =
    plus (at3 a t x y z) (scale (-1) (at3 b t x y z)) /\
  at3 (vneg3 a) t x y z = scale (-1) (at3 a t x y z).
Proof. exact linear3. Qed.
Print Assumptions C126_linear.

Theorem C126_plane : forall a b t x y,
  at2 (vadd2 a b) t x y =
    (fst (at2 a t x y) + fst (at2 b t x y),
     snd (at2 a t x y) + snd (at2 b t x y)) /\
  at2 (vsub2 a b) t x y =
    (fst (at2 a t x y) - fst (at2 b t x y),
     snd (at2 a t x y) - snd (at2 b t x y)) /\
  at2 (vneg2 a) t x y = (- fst (at2 a t x y), - snd (at2 a t x y)) /\
  call2 (dot2 a b) t x y =
    inner (at2 a t x y, 0) (at2 b t x y, 0) /\
  plainv2 (vadd2 a b) /\ plainv2 (vsub2 a b) /\ plainv2 (vneg2 a) /\
  plain2 (dot2 a b).
Proof. exact algebra2. Qed.
Print Assumptions C126_plane.

Example C126_nonvacuous :
  at3 exV 1 2 3 4 = (12, 2, 4) /\ at3 exU 1 2 3 4 = (1, 2, 1) /\
  at3 (cross3 exV exU) 1 2 3 4 = (-6, -8, 22).
Proof.
  unfold at3, exV, exU.
  cbn [cross3 vsub3 v0 v1 v2 sub3 mul3 instance3 call3].
  repeat split; f_equal; try (f_equal; ring); ring.
Qed.
