(** Numerical derivatives and the vector operators built on them. *)
From Coq Require Import Reals List Lra Lia FunctionalExtensionality.
From Verif Require Import FieldModel FieldSpec.
Import ListNotations.
Open Scope R_scope.

(** *** The difference quotient *)

Lemma derivative_central : forall f x h, h <> 0 ->
  derivative f x h = central f x h.
Proof.
  intros f x h Hh. unfold derivative, central, weights.
  cbn [seq fold_left nth INR].
  replace (x + (0 - 1) * h) with (x - h) by ring.
  replace (x + (1 + 1 - 1) * h) with (x + h) by ring.
  field. exact Hh.
Qed.

Lemma step_millionth : step = millionth.
Proof. unfold step, millionth. field. Qed.

Lemma millionth_pos : millionth > 0.
Proof. unfold millionth. lra. Qed.

Lemma partial3_diff : forall f a, same3 (scipy_partial3 f a) (diff3 a f).
Proof.
  intros f a t x y z. unfold scipy_partial3, diff3. rewrite <- step_millionth.
  assert (H : step <> 0) by (unfold step; lra).
  destruct a; apply derivative_central; exact H.
Qed.

Lemma partial2_diff : forall f a, same2 (scipy_partial2 f a) (diff2 a f).
Proof.
  intros f a t x y. unfold scipy_partial2, diff2. rewrite <- step_millionth.
  assert (H : step <> 0) by (unfold step; lra).
  destruct a; apply derivative_central; exact H.
Qed.

(** A function that starts at zero and does not grow is not positive. *)
Lemma not_growing : forall F F' h,
  (forall s, 0 <= s <= h -> derivable_pt_lim F s (F' s)) ->
  (forall s, 0 <= s <= h -> F' s <= 0) ->
  F 0 = 0 -> forall s, 0 <= s <= h -> F s <= 0.
Proof.
  intros F F' h HF HF' H0 s Hs.
  destruct (Req_dec s 0) as [->|Hne]; [lra|].
  destruct (MVT_cor2 F F' 0 s) as [c [Hc1 Hc2]]; [lra| |].
  - intros c Hc. apply HF. lra.
  - assert (F' c <= 0) by (apply HF'; lra).
    rewrite H0 in Hc1. assert (F' c * (s - 0) <= 0) by nra. lra.
Qed.

Lemma lim_shift_plus : forall f f' x s,
  derivable_pt_lim f (x + s) f' ->
  derivable_pt_lim (fun r => f (x + r)) s f'.
Proof.
  intros f f' x s H.
  replace f' with (f' * (0 + 1)) by ring.
  apply (derivable_pt_lim_comp (fun r => x + r) f); [|exact H].
  apply derivable_pt_lim_plus;
    [apply derivable_pt_lim_const|apply derivable_pt_lim_id].
Qed.

Lemma lim_shift_minus : forall f f' x s,
  derivable_pt_lim f (x - s) f' ->
  derivable_pt_lim (fun r => f (x - r)) s (- f').
Proof.
  intros f f' x s H.
  replace (- f') with (f' * (0 - 1)) by ring.
  apply (derivable_pt_lim_comp (fun r => x - r) f); [|exact H].
  apply derivable_pt_lim_minus;
    [apply derivable_pt_lim_const|apply derivable_pt_lim_id].
Qed.

Lemma lim_mono : forall c n s,
  derivable_pt_lim (fun r => c * r ^ n) s (c * (INR n * s ^ pred n)).
Proof.
  intros c n s. apply (derivable_pt_lim_scal (fun r => r ^ n)).
  apply derivable_pt_lim_pow.
Qed.

Lemma lim_eq : forall f x l l', derivable_pt_lim f x l -> l = l' ->
  derivable_pt_lim f x l'.
Proof. intros; subst; assumption. Qed.

Lemma rabs_between : forall a m, Rabs a <= m -> - m <= a <= m.
Proof. intros a m H. unfold Rabs in H. destruct (Rcase_abs a); lra. Qed.

(** One side of the bound. *)
Lemma central_upper : forall (f f1 f2 f3 : R -> R) x h m, 0 < h ->
  (forall s, x - h <= s <= x + h -> derivable_pt_lim f s (f1 s)) ->
  (forall s, x - h <= s <= x + h -> derivable_pt_lim f1 s (f2 s)) ->
  (forall s, x - h <= s <= x + h -> derivable_pt_lim f2 s (f3 s)) ->
  (forall s, x - h <= s <= x + h -> f3 s <= m) ->
  f (x + h) - f (x - h) - 2 * h * f1 x <= m * h ^ 3 / 3.
Proof.
  intros f f1 f2 f3 x h m Hh H1 H2 H3 Hm.
  set (G2 := fun s => f2 (x + s) - f2 (x - s) - (2 * m) * s ^ 1).
  set (G1 := fun s => f1 (x + s) + f1 (x - s) - 2 * f1 x - m * s ^ 2).
  set (G0 := fun s => f (x + s) - f (x - s) - (2 * f1 x) * s ^ 1
                      - (m / 3) * s ^ 3).
  assert (D2 : forall s, 0 <= s <= h ->
    derivable_pt_lim G2 s (f3 (x + s) + f3 (x - s) - 2 * m)).
  { intros s Hs. eapply lim_eq.
    - unfold G2. apply derivable_pt_lim_minus; [|apply lim_mono].
      apply derivable_pt_lim_minus;
        [apply lim_shift_plus|apply lim_shift_minus]; apply H3; lra.
    - simpl. ring. }
  assert (N2 : forall s, 0 <= s <= h -> G2 s <= 0).
  { apply (not_growing G2 (fun s => f3 (x + s) + f3 (x - s) - 2 * m) h D2).
    - intros s Hs. assert (f3 (x + s) <= m) by (apply Hm; lra).
      assert (f3 (x - s) <= m) by (apply Hm; lra). lra.
    - unfold G2. rewrite Rplus_0_r, Rminus_0_r. ring. }
  assert (D1 : forall s, 0 <= s <= h -> derivable_pt_lim G1 s (G2 s)).
  { intros s Hs. eapply lim_eq.
    - unfold G1. apply derivable_pt_lim_minus; [|apply lim_mono].
      apply derivable_pt_lim_minus; [|apply derivable_pt_lim_const].
      apply derivable_pt_lim_plus;
        [apply lim_shift_plus|apply lim_shift_minus]; apply H2; lra.
    - unfold G2. simpl. ring. }
  assert (N1 : forall s, 0 <= s <= h -> G1 s <= 0).
  { apply (not_growing G1 G2 h D1 N2).
    unfold G1. rewrite Rplus_0_r, Rminus_0_r. ring. }
  assert (D0 : forall s, 0 <= s <= h -> derivable_pt_lim G0 s (G1 s)).
  { intros s Hs. eapply lim_eq.
    - unfold G0. apply derivable_pt_lim_minus; [|apply lim_mono].
      apply derivable_pt_lim_minus; [|apply lim_mono].
      apply derivable_pt_lim_minus;
        [apply lim_shift_plus|apply lim_shift_minus]; apply H1; lra.
    - unfold G1. simpl. field. }
  assert (N0 : forall s, 0 <= s <= h -> G0 s <= 0).
  { apply (not_growing G0 G1 h D0 N1).
    unfold G0. rewrite Rplus_0_r, Rminus_0_r. ring. }
  assert (E := N0 h ltac:(lra)). unfold G0 in E. rewrite pow_1 in E.
  replace (m * h ^ 3 / 3) with (m / 3 * h ^ 3) by field. lra.
Qed.

Lemma central_error : forall (f f1 f2 f3 : R -> R) x h m, 0 < h ->
  (forall s, x - h <= s <= x + h -> derivable_pt_lim f s (f1 s)) ->
  (forall s, x - h <= s <= x + h -> derivable_pt_lim f1 s (f2 s)) ->
  (forall s, x - h <= s <= x + h -> derivable_pt_lim f2 s (f3 s)) ->
  (forall s, x - h <= s <= x + h -> Rabs (f3 s) <= m) ->
  Rabs (derivative f x h - f1 x) <= m * h ^ 2 / 6.
Proof.
  intros f f1 f2 f3 x h m Hh H1 H2 H3 Hm.
  rewrite derivative_central by lra.
  assert (U := central_upper f f1 f2 f3 x h m Hh H1 H2 H3
    ltac:(intros s Hs; specialize (Hm s Hs); apply rabs_between in Hm;
          lra)).
  assert (L := central_upper (fun s => - f s) (fun s => - f1 s)
    (fun s => - f2 s) (fun s => - f3 s) x h m Hh
    ltac:(intros s Hs; apply derivable_pt_lim_opp; apply H1; exact Hs)
    ltac:(intros s Hs; apply derivable_pt_lim_opp; apply H2; exact Hs)
    ltac:(intros s Hs; apply derivable_pt_lim_opp; apply H3; exact Hs)
    ltac:(intros s Hs; specialize (Hm s Hs); apply rabs_between in Hm;
          lra)).
  cbv beta in L. unfold central.
  replace ((f (x + h) - f (x - h)) / (2 * h) - f1 x)
    with ((f (x + h) - f (x - h) - 2 * h * f1 x) / (2 * h))
    by (field; lra).
  replace (m * h ^ 2 / 6) with ((m * h ^ 3 / 3) / (2 * h))
    by (field; lra).
  assert (P : 0 < / (2 * h)) by (apply Rinv_0_lt_compat; lra).
  unfold Rdiv at 1. rewrite Rabs_mult, (Rabs_right (/ (2 * h))) by lra.
  unfold Rdiv at 1. apply Rmult_le_compat_r; [lra|].
  apply Rabs_le. lra.
Qed.
