(** Pointwise algebra, the checks, and fields that are stuck. *)
From Coq Require Import Reals List Lra Lia.
From Verif Require Import FieldModel FieldSpec FieldProofs FieldProofs2.
Import ListNotations.
Open Scope R_scope.

Lemma dot3_inner : forall a b t x y z,
  call3 (dot3 a b) t x y z = inner (at3 a t x y z) (at3 b t x y z).
Proof. reflexivity. Qed.

Lemma cross3_determinant : forall a b t x y z c,
  inner (at3 (cross3 a b) t x y z) c =
  determinant (at3 a t x y z) (at3 b t x y z) c.
Proof.
  intros a b t x y z [[c0 c1] c2]. unfold at3, determinant, inner.
  cbn [cross3 vsub3 v0 v1 v2 sub3 mul3 instance3 call3]. ring.
Qed.

Lemma cross3_orthogonal : forall a b t x y z,
  call3 (dot3 a (cross3 a b)) t x y z = 0 /\
  call3 (dot3 b (cross3 a b)) t x y z = 0.
Proof.
  intros a b t x y z.
  cbn [dot3 cross3 vsub3 v0 v1 v2 sub3 mul3 sum3 instance3 call3].
  split; ring.
Qed.

Lemma cross3_antisymmetric : forall a b t x y z,
  at3 (cross3 a b) t x y z = at3 (vneg3 (cross3 b a)) t x y z.
Proof.
  intros a b t x y z. unfold at3.
  cbn [cross3 vsub3 vneg3 v0 v1 v2 sub3 neg3 mul3 instance3 call3].
  f_equal; [f_equal|]; ring.
Qed.

Lemma cross3_lagrange : forall a b t x y z,
  call3 (dot3 (cross3 a b) (cross3 a b)) t x y z =
  call3 (dot3 a a) t x y z * call3 (dot3 b b) t x y z
  - call3 (dot3 a b) t x y z * call3 (dot3 a b) t x y z.
Proof.
  intros a b t x y z.
  cbn [dot3 cross3 vsub3 v0 v1 v2 sub3 mul3 sum3 instance3 call3]. ring.
Qed.

Lemma cross3_triple : forall a b c t x y z,
  at3 (cross3 a (cross3 b c)) t x y z =
  plus (scale (call3 (dot3 a c) t x y z) (at3 b t x y z))
       (scale (- call3 (dot3 a b) t x y z) (at3 c t x y z)).
Proof.
  intros a b c t x y z. unfold at3, plus, scale.
  cbn [dot3 cross3 vsub3 v0 v1 v2 sub3 mul3 sum3 instance3 call3].
  f_equal; [f_equal|]; ring.
Qed.

Lemma linear3 : forall a b t x y z,
  at3 (vadd3 a b) t x y z = plus (at3 a t x y z) (at3 b t x y z) /\
  at3 (vsub3 a b) t x y z =
    plus (at3 a t x y z) (scale (-1) (at3 b t x y z)) /\
  at3 (vneg3 a) t x y z = scale (-1) (at3 a t x y z).
Proof.
  intros a b t x y z. unfold at3, plus, scale.
  cbn [vadd3 vsub3 vneg3 v0 v1 v2 sub3 add3 neg3 instance3 call3].
  repeat split; f_equal; try (f_equal; ring); ring.
Qed.

Lemma algebra2 : forall a b t x y,
  at2 (vadd2 a b) t x y =
    (fst (at2 a t x y) + fst (at2 b t x y),
     snd (at2 a t x y) + snd (at2 b t x y)) /\
  at2 (vsub2 a b) t x y =
    (fst (at2 a t x y) - fst (at2 b t x y),
     snd (at2 a t x y) - snd (at2 b t x y)) /\
  at2 (vneg2 a) t x y = (- fst (at2 a t x y), - snd (at2 a t x y)) /\
  call2 (dot2 a b) t x y =
    inner (at2 a t x y, 0) (at2 b t x y, 0) /\
  plainv2 (vadd2 a b) /\ plainv2 (vsub2 a b) /\ plainv2 (vneg2 a) /\
  plain2 (dot2 a b).
Proof.
  intros a b t x y.
  split; [reflexivity|]. split; [reflexivity|]. split; [reflexivity|].
  split.
  - unfold at2, inner. cbn [dot2 add2 mul2 instance2 call2]. ring.
  - repeat split; right; right; reflexivity.
Qed.

(** *** Fields that are stuck *)

Lemma stuck_results3 : forall a b : scalar3,
  stuck3 (sadd3 a b) /\ stuck3 (ssub3 a b) /\ stuck3 (sneg3 a) /\
  stuck3 (smul3 a b).
Proof. intros a b. repeat split; apply never_scalar3; reflexivity. Qed.

Lemma stuck_resultsv3 : forall a b : vector3,
  stuckv3 (vadd3 a b) /\ stuckv3 (vsub3 a b) /\ stuckv3 (vneg3 a) /\
  stuckv3 (cross3 a b) /\ stuck3 (dot3 a b).
Proof.
  intros a b.
  assert (V : forall v, neverv3 v -> stuckv3 v) by exact never_vector3.
  repeat split;
    try (apply V; repeat split; reflexivity);
    apply never_scalar3; reflexivity.
Qed.

Lemma sconvection3_never : forall s u c,
  sconvection3 s u = Done c -> never3 c.
Proof.
  intros s u c. unfold sconvection3, andthen.
  destruct (numeric3 s); [|discriminate].
  intros E. injection E as <-. reflexivity.
Qed.

Lemma vconvection3_never : forall v u c,
  vconvection3 v u = Done c -> neverv3 c.
Proof.
  intros v u c. unfold vconvection3, andthen.
  destruct (numeric3 (v0 v)); [|discriminate].
  destruct (numeric3 (v1 v)); [|discriminate].
  destruct (numeric3 (v2 v)); [|discriminate].
  intros E. injection E as <-. repeat split.
Qed.

Lemma stuck_derived3 : forall v u : vector3,
  (forall w, curl3 v = Done w -> stuckv3 w) /\
  (forall c, divergence3 v = Done c -> stuck3 c) /\
  (forall w, vconvection3 v u = Done w -> stuckv3 w) /\
  (forall s c, sconvection3 s u = Done c -> stuck3 c).
Proof.
  intros v u. split; [|split; [|split]].
  - intros w E. apply (never_vector3 w). exact (curl3_never v w E).
  - intros c E. apply (never_scalar3 c). exact (divergence3_never v c E).
  - intros w E. apply (never_vector3 w). exact (vconvection3_never v u w E).
  - intros s c E. apply (never_scalar3 c). exact (sconvection3_never s u c E).
Qed.

(** *** The checks *)

Lemma rlt_true : forall a b, rlt a b = true <-> a < b.
Proof.
  intros a b. unfold rlt. destruct (Rlt_dec a b); split; intros H;
    try reflexivity; try assumption; [discriminate|lra].
Qed.

Lemma tolerance_eq : tolerance = 1 / 100000.
Proof. unfold tolerance. lra. Qed.

Lemma close_abs_true : forall f s,
  close_abs (f, s) = true <-> Rabs (f - s) < 1 / 100000.
Proof.
  intros f s. unfold close_abs. cbn [fst snd].
  rewrite rlt_true, tolerance_eq. reflexivity.
Qed.

Lemma close_rel_true : forall against p,
  close_rel against p = true <->
  against p <> 0 /\
  Rabs (fst p - snd p) < 1 / 100000 * Rabs (against p).
Proof.
  intros against p. unfold close_rel.
  destruct (Req_EM_T (against p) 0) as [E|E].
  - split; [discriminate|]. intros [H _]. contradiction.
  - rewrite rlt_true, tolerance_eq.
    assert (P := Rabs_pos_lt _ E).
    unfold Rdiv at 1. rewrite Rabs_mult, Rabs_inv.
    split.
    + intros H. split; [exact E|].
      apply Rmult_lt_reg_r with (/ Rabs (against p));
        [apply Rinv_0_lt_compat; exact P|].
      rewrite Rmult_assoc, Rinv_r, Rmult_1_r by lra. exact H.
    + intros [_ H].
      apply Rmult_lt_reg_r with (Rabs (against p)); [exact P|].
      rewrite Rmult_assoc, Rinv_l, Rmult_1_r by lra. exact H.
Qed.

Lemma check_partial_iff : forall a func_p self_p,
  check_partial a func_p self_p = true <-> accepted a func_p self_p.
Proof.
  intros a fp sp. unfold check_partial, accepted.
  destruct (forallb close_abs (combine fp sp)) eqn:E.
  - split; intros _; [|reflexivity]. left. intros f s H.
    rewrite forallb_forall in E. apply close_abs_true. apply E. exact H.
  - split.
    + intros H. right. rewrite forallb_forall in H. intros f s Hin.
      specialize (H (f, s) Hin). apply close_rel_true in H.
      destruct a; exact H.
    + intros [H|H].
      * exfalso. apply Bool.not_true_iff_false in E. apply E.
        apply forallb_forall. intros [f s] Hin. apply close_abs_true.
        apply H. exact Hin.
      * apply forallb_forall. intros [f s] Hin. apply close_rel_true.
        specialize (H f s Hin). destruct a; exact H.
Qed.

Lemma partial3_error : forall a f f1 f2 f3 m,
  is_partial3 a f f1 -> is_partial3 a f1 f2 -> is_partial3 a f2 f3 ->
  (forall t x y z, Rabs (f3 t x y z) <= m) ->
  forall t x y z,
  Rabs (scipy_partial3 f a t x y z - f1 t x y z)
    <= m * millionth ^ 2 / 6.
Proof.
  intros a f f1 f2 f3 m H1 H2 H3 Hm t x y z.
  assert (P : 0 < step) by (rewrite step_millionth; apply millionth_pos).
  rewrite <- step_millionth. unfold scipy_partial3.
  destruct a.
  - apply (central_error (fun s => f s x y z) (fun s => f1 s x y z)
      (fun s => f2 s x y z) (fun s => f3 s x y z) t step m P);
      intros s _; [apply (H1 s x y z)|apply (H2 s x y z)
      |apply (H3 s x y z)|apply Hm].
  - apply (central_error (fun s => f t s y z) (fun s => f1 t s y z)
      (fun s => f2 t s y z) (fun s => f3 t s y z) x step m P);
      intros s _; [apply (H1 t s y z)|apply (H2 t s y z)
      |apply (H3 t s y z)|apply Hm].
  - apply (central_error (fun s => f t x s z) (fun s => f1 t x s z)
      (fun s => f2 t x s z) (fun s => f3 t x s z) y step m P);
      intros s _; [apply (H1 t x s z)|apply (H2 t x s z)
      |apply (H3 t x s z)|apply Hm].
  - apply (central_error (fun s => f t x y s) (fun s => f1 t x y s)
      (fun s => f2 t x y s) (fun s => f3 t x y s) z step m P);
      intros s _; [apply (H1 t x y s)|apply (H2 t x y s)
      |apply (H3 t x y s)|apply Hm].
Qed.

Lemma partial2_error : forall a f f1 f2 f3 m,
  is_partial2 a f f1 -> is_partial2 a f1 f2 -> is_partial2 a f2 f3 ->
  (forall t x y, Rabs (f3 t x y) <= m) ->
  forall t x y,
  Rabs (scipy_partial2 f a t x y - f1 t x y) <= m * millionth ^ 2 / 6.
Proof.
  intros a f f1 f2 f3 m H1 H2 H3 Hm t x y.
  assert (P : 0 < step) by (rewrite step_millionth; apply millionth_pos).
  rewrite <- step_millionth. unfold scipy_partial2.
  destruct a.
  - apply (central_error (fun s => f s x y) (fun s => f1 s x y)
      (fun s => f2 s x y) (fun s => f3 s x y) t step m P);
      intros s _; [apply (H1 s x y)|apply (H2 s x y)
      |apply (H3 s x y)|apply Hm].
  - apply (central_error (fun s => f t s y) (fun s => f1 t s y)
      (fun s => f2 t s y) (fun s => f3 t s y) x step m P);
      intros s _; [apply (H1 t s y)|apply (H2 t s y)
      |apply (H3 t s y)|apply Hm].
  - apply (central_error (fun s => f t x s) (fun s => f1 t x s)
      (fun s => f2 t x s) (fun s => f3 t x s) y step m P);
      intros s _; [apply (H1 t x s)|apply (H2 t x s)
      |apply (H3 t x s)|apply Hm].
Qed.

(** The quotient of a cubic is off by the square of the step. *)
Lemma derivative_cubic : forall a b c d x h, h <> 0 ->
  derivative (fun s => a * s ^ 3 + b * s ^ 2 + c * s + d) x h =
  3 * a * x ^ 2 + 2 * b * x + c + a * h ^ 2.
Proof.
  intros a b c d x h Hh. rewrite derivative_central by exact Hh.
  unfold central. field. exact Hh.
Qed.

(** A formula that passes is near the derivative. *)
Lemma check_sound : forall a (f f1 f2 f3 g : field3) m (points : list
    (R * R * R * R)) k,
  is_partial3 a f f1 -> is_partial3 a f1 f2 -> is_partial3 a f2 f3 ->
  (forall t x y z, Rabs (f3 t x y z) <= m) ->
  (forall t x y z, In (t, x, y, z) points ->
     Rabs (f1 t x y z) <= k /\ Rabs (g t x y z) <= k) ->
  check_partial a
    (map (fun '(t, x, y, z) => g t x y z) points)
    (map (fun '(t, x, y, z) => scipy_partial3 f a t x y z) points) = true ->
  forall t x y z, In (t, x, y, z) points ->
  Rabs (g t x y z - f1 t x y z) <
    1 / 100000 * Rmax 1 (k + m * millionth ^ 2 / 6)
    + m * millionth ^ 2 / 6.
Proof.
  intros a f f1 f2 f3 g m pts k H1 H2 H3 Hm Hk Hc t x y z Hin.
  assert (E := partial3_error a f f1 f2 f3 m H1 H2 H3 Hm t x y z).
  set (N := scipy_partial3 f a t x y z) in *.
  assert (M0 : 0 <= m).
  { apply Rle_trans with (Rabs (f3 0 0 0 0)); [apply Rabs_pos|apply Hm]. }
  assert (D0 : 0 <= m * millionth ^ 2 / 6).
  { unfold Rdiv. apply Rmult_le_pos; [apply Rmult_le_pos|]; try lra.
    apply pow2_ge_0. }
  set (D := m * millionth ^ 2 / 6) in *.
  destruct (Hk t x y z Hin) as [K1 K2].
  assert (Hp : In (g t x y z, N)
    (combine (map (fun '(t, x, y, z) => g t x y z) pts)
       (map (fun '(t, x, y, z) => scipy_partial3 f a t x y z) pts))).
  { clear - Hin. subst N. induction pts as [|[[[t' x'] y'] z'] l IH];
      [contradiction|].
    destruct Hin as [Q|Hin].
    - injection Q as -> -> -> ->. left. reflexivity.
    - right. apply IH. exact Hin. }
  assert (T : Rabs (g t x y z - f1 t x y z) <=
    Rabs (g t x y z - N) + Rabs (N - f1 t x y z)).
  { replace (g t x y z - f1 t x y z)
      with ((g t x y z - N) + (N - f1 t x y z)) by ring.
    apply Rabs_triang. }
  assert (KN : Rabs N <= k + D).
  { replace N with ((N - f1 t x y z) + f1 t x y z) by ring.
    eapply Rle_trans; [apply Rabs_triang|]. lra. }
  assert (X1 := Rmax_l 1 (k + D)). assert (X2 := Rmax_r 1 (k + D)).
  apply check_partial_iff in Hc. destruct Hc as [Hc|Hc].
  - specialize (Hc _ _ Hp). lra.
  - specialize (Hc _ _ Hp). cbv zeta in Hc. destruct Hc as [_ Hc].
    assert (Rabs (match a with AZ => g t x y z | _ => N end) <= k + D)
      by (destruct a; lra).
    lra.
Qed.
