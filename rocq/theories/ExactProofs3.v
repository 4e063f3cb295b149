(** Proofs about the exact solutions in two dimensions, and derivatives of
    explicit formulas. *)
From Coq Require Import Reals Lra.
From Verif Require Import FieldModel FieldSpec FieldProofs ExactModel
  ExactSpec ExactCaseModel ExactProofs.
Open Scope R_scope.

(** *** Derivatives of formulas *)

Lemma lim_value : forall f x l l', derivable_pt_lim f x l -> l = l' ->
  derivable_pt_lim f x l'.
Proof. intros f x l l' D <-. exact D. Qed.

Lemma lim_plus : forall f g x a b, derivable_pt_lim f x a ->
  derivable_pt_lim g x b -> derivable_pt_lim (fun s => f s + g s) x (a + b).
Proof. intros. apply (derivable_pt_lim_plus f g); assumption. Qed.
Lemma lim_minus : forall f g x a b, derivable_pt_lim f x a ->
  derivable_pt_lim g x b -> derivable_pt_lim (fun s => f s - g s) x (a - b).
Proof. intros. apply (derivable_pt_lim_minus f g); assumption. Qed.
Lemma lim_mult : forall f g x a b, derivable_pt_lim f x a ->
  derivable_pt_lim g x b ->
  derivable_pt_lim (fun s => f s * g s) x (a * g x + f x * b).
Proof. intros. apply (derivable_pt_lim_mult f g); assumption. Qed.
Lemma lim_div : forall f c x a, derivable_pt_lim f x a ->
  derivable_pt_lim (fun s => f s / c) x (a / c).
Proof.
  intros f c x a D.
  apply (lim_value _ _ (a * / c + f x * 0)).
  - apply (lim_mult f (fun _ => / c)); [exact D|].
    apply derivable_pt_lim_const.
  - unfold Rdiv. ring.
Qed.
Lemma lim_opp : forall f x a, derivable_pt_lim f x a ->
  derivable_pt_lim (fun s => - f s) x (- a).
Proof. intros. apply (derivable_pt_lim_opp f); assumption. Qed.
Lemma lim_sin : forall f x a, derivable_pt_lim f x a ->
  derivable_pt_lim (fun s => sin (f s)) x (cos (f x) * a).
Proof.
  intros f x a D.
  apply (derivable_pt_lim_comp f sin x a); [exact D|].
  apply derivable_pt_lim_sin.
Qed.
Lemma lim_cos : forall f x a, derivable_pt_lim f x a ->
  derivable_pt_lim (fun s => cos (f s)) x (- sin (f x) * a).
Proof.
  intros f x a D.
  apply (derivable_pt_lim_comp f cos x a); [exact D|].
  apply derivable_pt_lim_cos.
Qed.
Lemma lim_exp : forall f x a, derivable_pt_lim f x a ->
  derivable_pt_lim (fun s => exp (f s)) x (exp (f x) * a).
Proof.
  intros f x a D.
  apply (derivable_pt_lim_comp f exp x a); [exact D|].
  apply derivable_pt_lim_exp.
Qed.
Lemma lim_square : forall f x a, derivable_pt_lim f x a ->
  derivable_pt_lim (fun s => f s ^ 2) x (2 * f x * a).
Proof.
  intros f x a D. apply (lim_ext (fun s => f s * f s)).
  - intro s. ring.
  - apply (lim_value _ _ (a * f x + f x * a)); [|ring].
    apply lim_mult; assumption.
Qed.

Ltac der :=
  lazymatch goal with
  | |- derivable_pt_lim (fun _ => ?c) _ _ => apply derivable_pt_lim_const
  | |- derivable_pt_lim (fun s => s) _ _ => apply derivable_pt_lim_id
  | |- derivable_pt_lim (fun s => @?f s + @?g s) _ _ =>
      apply (lim_plus f g); cbv beta; der
  | |- derivable_pt_lim (fun s => @?f s - @?g s) _ _ =>
      apply (lim_minus f g); cbv beta; der
  | |- derivable_pt_lim (fun s => @?f s * @?g s) _ _ =>
      apply (lim_mult f g); cbv beta; der
  | |- derivable_pt_lim (fun s => @?f s / ?c) _ _ =>
      apply (lim_div f c); cbv beta; der
  | |- derivable_pt_lim (fun s => - @?f s) _ _ =>
      apply (lim_opp f); cbv beta; der
  | |- derivable_pt_lim (fun s => sin (@?f s)) _ _ =>
      apply (lim_sin f); cbv beta; der
  | |- derivable_pt_lim (fun s => cos (@?f s)) _ _ =>
      apply (lim_cos f); cbv beta; der
  | |- derivable_pt_lim (fun s => exp (@?f s)) _ _ =>
      apply (lim_exp f); cbv beta; der
  | |- derivable_pt_lim (fun s => @?f s ^ 2) _ _ =>
      apply (lim_square f); cbv beta; der
  end.

(** Leaves the equation between the computed and the given derivative. *)
Ltac derive :=
  eapply lim_value; [cbv beta; der|cbv beta].

(** *** Calculus in two dimensions *)

Lemma unique2 : forall a f g h,
  is_partial2 a f g -> is_partial2 a f h -> same2 g h.
Proof.
  intros a f g h G H t x y.
  exact (uniqueness_limite _ _ _ _ (G t x y) (H t x y)).
Qed.

Lemma partial_ext2 : forall a f f' g g', same2 f f' -> same2 g g' ->
  is_partial2 a f g -> is_partial2 a f' g'.
Proof.
  intros a f f' g g' Ef Eg D t x y. rewrite <- Eg.
  apply (lim_ext (line2 a f t x y)); [|apply D].
  intro s. destruct a; apply Ef.
Qed.

Lemma plus2 : forall a f f' g g',
  is_partial2 a f f' -> is_partial2 a g g' ->
  is_partial2 a (fun t x y => f t x y + g t x y)
                (fun t x y => f' t x y + g' t x y).
Proof.
  intros a f f' g g' Df Dg t x y.
  assert (D := lim_plus _ _ _ _ _ (Df t x y) (Dg t x y)).
  destruct a; exact D.
Qed.

Lemma minus2 : forall a f f' g g',
  is_partial2 a f f' -> is_partial2 a g g' ->
  is_partial2 a (fun t x y => f t x y - g t x y)
                (fun t x y => f' t x y - g' t x y).
Proof.
  intros a f f' g g' Df Dg t x y.
  assert (D := lim_minus _ _ _ _ _ (Df t x y) (Dg t x y)).
  destruct a; exact D.
Qed.

Lemma mult2 : forall a f f' g g',
  is_partial2 a f f' -> is_partial2 a g g' ->
  is_partial2 a (fun t x y => f t x y * g t x y)
    (fun t x y => f' t x y * g t x y + f t x y * g' t x y).
Proof.
  intros a f f' g g' Df Dg t x y.
  assert (D := lim_mult _ _ _ _ _ (Df t x y) (Dg t x y)).
  destruct a; exact D.
Qed.

Lemma second2 : forall a b q qa qb q1 q2,
  is_partial2 a q qa -> is_partial2 a q qb ->
  is_partial2 b qa q1 -> is_partial2 b qb q2 -> same2 q1 q2.
Proof.
  intros a b q qa qb q1 q2 A B C D.
  apply (unique2 b qb); [|exact D].
  apply (partial_ext2 b qa qb q1 q1); [|intros t x y; reflexivity|exact C].
  exact (unique2 a q qa qb A B).
Qed.

Lemma kinetic2_partial : forall a p p' u u' v v',
  is_partial2 a p p' -> is_partial2 a u u' -> is_partial2 a v v' ->
  is_partial2 a
    (fun t x y => p t x y + (u t x y * u t x y + v t x y * v t x y) / 2)
    (fun t x y => p' t x y + u t x y * u' t x y + v t x y * v' t x y).
Proof.
  intros a p p' u u' v v' P U V t x y.
  assert (D := plus2 a _ _ _ _ (mult2 a _ _ _ _ U U) (mult2 a _ _ _ _ V V)).
  assert (D' := lim_div _ 2 _ _ (D t x y)).
  assert (D'' := lim_plus _ _ _ _ _ (P t x y) D').
  eapply lim_value; [destruct a; exact D''|]. field.
Qed.

Lemma tp2_gradient : forall e, exact_flow2 e ->
  same2 (d_x (g_tp e)) (fun t x y => d_x (g_p e) t x y
    + d_val (g_u e) t x y * d_x (g_u e) t x y
    + d_val (g_v e) t x y * d_x (g_v e) t x y) /\
  same2 (d_y (g_tp e)) (fun t x y => d_y (g_p e) t x y
    + d_val (g_u e) t x y * d_y (g_u e) t x y
    + d_val (g_v e) t x y * d_y (g_v e) t x y).
Proof.
  intros e [[_ [Ux [Uy _]]] [[_ [Vx [Vy _]]] [[Px Py]
    [_ [_ [_ [E [Tx Ty]]]]]]]].
  split.
  - apply (unique2 BX _ _ _ Tx).
    eapply partial_ext2;
      [|intros t x y; reflexivity|exact (kinetic2_partial BX _ _ _ _ _ _ Px
        Ux Vx)].
    intros t x y. symmetry. apply E.
  - apply (unique2 BY _ _ _ Ty).
    eapply partial_ext2;
      [|intros t x y; reflexivity|exact (kinetic2_partial BY _ _ _ _ _ _ Py
        Uy Vy)].
    intros t x y. symmetry. apply E.
Qed.

(** The body force: the gradient of the divergence of the velocity is there
    with the viscosity. *)
Lemma navier_stokes2 : forall e, exact_flow2 e ->
  smooth2 (g_u e) -> smooth2 (g_v e) ->
  forall px py gx gy : field2,
  is_partial2 BX (d_val (g_p e)) px -> is_partial2 BY (d_val (g_p e)) py ->
  is_partial2 BX (div_velocity2 e) gx ->
  is_partial2 BY (div_velocity2 e) gy ->
  transport2 (g_nu e) (d_val (g_u e)) (d_val (g_v e)) (d_val (g_u e))
    (fun t x y => px t x y + g_nu e * gx t x y) (force_x2 e) /\
  transport2 (g_nu e) (d_val (g_u e)) (d_val (g_v e)) (d_val (g_v e))
    (fun t x y => py t x y + g_nu e * gy t x y) (force_y2 e).
Proof.
  intros e He [uxy [U1 U2]] [vxy [V1 V2]] px py gx gy Dpx Dpy Gx Gy.
  destruct (tp2_gradient e He) as [Tx Ty].
  destruct He as [[Ut [Ux [Uy [Uxx Uyy]]]] [[Vt [Vx [Vy [Vxx Vyy]]]] [[Px Py]
    [Eo [Ox [Oy _]]]]]].
  assert (Ox' : same2 (d_x (g_omega e))
    (fun t x y => d_xx (g_v e) t x y - uxy t x y)).
  { apply (unique2 BX _ _ _ Ox).
    eapply partial_ext2;
      [|intros t x y; reflexivity|exact (minus2 BX _ _ _ _ Vxx U2)].
    intros t x y. symmetry. apply Eo. }
  assert (Oy' : same2 (d_y (g_omega e))
    (fun t x y => vxy t x y - d_yy (g_u e) t x y)).
  { apply (unique2 BY _ _ _ Oy).
    eapply partial_ext2;
      [|intros t x y; reflexivity|exact (minus2 BY _ _ _ _ V1 Uyy)].
    intros t x y. symmetry. apply Eo. }
  assert (Gx' := unique2 _ _ _ _ Gx (plus2 _ _ _ _ _ Uxx V2)).
  assert (Gy' := unique2 _ _ _ _ Gy (plus2 _ _ _ _ _ U1 Vyy)).
  split; intros qt qx qy qxx qyy Qt Qx Qy Qxx Qyy t x y.
  - unfold force_x2. rewrite (Tx t x y), (Eo t x y), (Oy' t x y),
      (Gx' t x y).
    rewrite (unique2 _ _ _ _ Ut Qt t x y).
    rewrite <- (unique2 _ _ _ _ Ux Qx t x y).
    rewrite <- (unique2 _ _ _ _ Uy Qy t x y).
    rewrite (unique2 _ _ _ _ Px Dpx t x y).
    rewrite (second2 _ _ _ _ _ _ _ Ux Qx Uxx Qxx t x y).
    rewrite (second2 _ _ _ _ _ _ _ Uy Qy Uyy Qyy t x y). ring.
  - unfold force_y2. rewrite (Ty t x y), (Eo t x y), (Ox' t x y),
      (Gy' t x y).
    rewrite (unique2 _ _ _ _ Vt Qt t x y).
    rewrite <- (unique2 _ _ _ _ Vx Qx t x y).
    rewrite <- (unique2 _ _ _ _ Vy Qy t x y).
    rewrite (unique2 _ _ _ _ Py Dpy t x y).
    rewrite (second2 _ _ _ _ _ _ _ Vx Qx Vxx Qxx t x y).
    rewrite (second2 _ _ _ _ _ _ _ Vy Qy Vyy Qyy t x y). ring.
Qed.

Lemma partial_zero2 : forall a, is_partial2 a zero2 zero2.
Proof.
  intros a t x y. assert (D := derivable_pt_lim_const 0 (coordinate2 a t x y)).
  destruct a; exact D.
Qed.

Lemma momentum_solenoidal2 : forall e, exact_flow2 e ->
  smooth2 (g_u e) -> smooth2 (g_v e) ->
  solenoidal2 (d_val (g_u e)) (d_val (g_v e)) ->
  momentum2 (g_nu e) (d_val (g_u e)) (d_val (g_v e)) (d_val (g_p e))
    (force_x2 e) (force_y2 e).
Proof.
  intros e He Su Sv [ux [vy [Dux [Dvy Z]]]] px py Dx Dy.
  assert (D : forall a, is_partial2 a (div_velocity2 e) zero2).
  { intro a. apply (partial_ext2 a zero2 _ zero2 zero2).
    - intros t x y. unfold zero2, div_velocity2.
      destruct He as [[_ [Ux _]] [[_ [_ [Vy _]]] _]].
      rewrite (unique2 _ _ _ _ Ux Dux t x y).
      rewrite (unique2 _ _ _ _ Vy Dvy t x y). symmetry. apply Z.
    - intros t x y. reflexivity.
    - apply partial_zero2. }
  destruct (navier_stokes2 e He Su Sv px py zero2 zero2 Dx Dy (D BX) (D BY))
    as [A B].
  split; intros qt qx qy qxx qyy Qt Qx Qy Qxx Qyy t x y.
  - rewrite (A qt qx qy qxx qyy Qt Qx Qy Qxx Qyy t x y). unfold zero2. ring.
  - rewrite (B qt qx qy qxx qyy Qt Qx Qy Qxx Qyy t x y). unfold zero2. ring.
Qed.

Lemma euler_flow2 : forall e, exact_flow2 e ->
  momentum2 0 (d_val (g_u e)) (d_val (g_v e)) (d_val (g_p e))
    (euler_x2 e) (euler_y2 e).
Proof.
  intros e He px py Dx Dy. destruct (tp2_gradient e He) as [Tx Ty].
  destruct He as [[Ut [Ux [Uy [Uxx Uyy]]]] [[Vt [Vx [Vy [Vxx Vyy]]]] [[Px Py]
    [Eo _]]]].
  split; intros qt qx qy qxx qyy Qt Qx Qy Qxx Qyy t x y.
  - unfold euler_x2. rewrite (Tx t x y), (Eo t x y).
    rewrite (unique2 _ _ _ _ Ut Qt t x y).
    rewrite <- (unique2 _ _ _ _ Ux Qx t x y).
    rewrite <- (unique2 _ _ _ _ Uy Qy t x y).
    rewrite (unique2 _ _ _ _ Px Dx t x y). ring.
  - unfold euler_y2. rewrite (Ty t x y), (Eo t x y).
    rewrite (unique2 _ _ _ _ Vt Qt t x y).
    rewrite <- (unique2 _ _ _ _ Vx Qx t x y).
    rewrite <- (unique2 _ _ _ _ Vy Qy t x y).
    rewrite (unique2 _ _ _ _ Py Dy t x y). ring.
Qed.

Lemma laplace2_spec : forall p, exact2 p ->
  is_laplacian2 (d_val p) (laplace_f2 p).
Proof.
  intros p [_ [Px [Py [Pxx Pyy]]]] qx qy qxx qyy Qx Qy Qxx Qyy t x y.
  unfold laplace_f2.
  rewrite (second2 _ _ _ _ _ _ _ Px Qx Pxx Qxx t x y).
  rewrite (second2 _ _ _ _ _ _ _ Py Qy Pyy Qyy t x y). reflexivity.
Qed.

Lemma stokes2_spec : forall u v p, exact2 u -> exact2 v -> first2 p ->
  forall px py lu lv : field2,
  is_partial2 BX (d_val p) px -> is_partial2 BY (d_val p) py ->
  is_laplacian2 (d_val u) lu -> is_laplacian2 (d_val v) lv ->
  same2 (stokes_x2 u p) (fun t x y => px t x y - lu t x y) /\
  same2 (stokes_y2 v p) (fun t x y => py t x y - lv t x y).
Proof.
  intros u v p [_ [Ux [Uy [Uxx Uyy]]]] [_ [Vx [Vy [Vxx Vyy]]]] [Px Py]
    px py lu lv Dx Dy Lu Lv.
  split; intros t x y.
  - unfold stokes_x2. rewrite (Lu _ _ _ _ Ux Uy Uxx Uyy t x y).
    rewrite (unique2 _ _ _ _ Px Dx t x y). ring.
  - unfold stokes_y2. rewrite (Lv _ _ _ _ Vx Vy Vxx Vyy t x y).
    rewrite (unique2 _ _ _ _ Py Dy t x y). ring.
Qed.
