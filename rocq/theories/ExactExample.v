(** Solutions whose derivatives are all right. *)
From Coq Require Import Reals Lra.
From Verif Require Import FieldModel FieldSpec ExactModel ExactSpec
  ExactCaseModel ExactProofs ExactProofs3 ExactProofs4 ExactProofs5.
Open Scope R_scope.

(** The Taylor-Green vortex with exact derivatives. *)
Definition ex_tgv (nu : R) : flow2 :=
  let u := tgv_u nu in let v := tgv_v nu in
  let ux := tgv_ux nu in let uy := tgv_uy nu in
  mkflow2 nu
    (mkcomp2 u (fun t x y => -2 * PI ^ 2 * nu * u t x y) ux uy
       (fun t x y => - PI ^ 2 * u t x y) (fun t x y => - PI ^ 2 * u t x y))
    (mkcomp2 v (fun t x y => -2 * PI ^ 2 * nu * v t x y)
       (fun t x y => - uy t x y) (fun t x y => - ux t x y)
       (fun t x y => - PI ^ 2 * v t x y) (fun t x y => - PI ^ 2 * v t x y))
    (mkcomp2 (tgv_p nu) zero2 (tgv_px nu) (tgv_py nu) zero2 zero2)
    (mkcomp2 (fun t x y => - uy t x y - uy t x y) zero2
       (fun t x y => - PI ^ 2 * v t x y - PI ^ 2 * v t x y)
       (fun t x y => PI ^ 2 * u t x y - - PI ^ 2 * u t x y) zero2 zero2)
    (mkcomp2 (fun t x y => tgv_p nu t x y
                + (u t x y * u t x y + v t x y * v t x y) / 2) zero2
       (fun t x y => tgv_px nu t x y + u t x y * ux t x y
                     + v t x y * - uy t x y)
       (fun t x y => tgv_py nu t x y + u t x y * uy t x y
                     + v t x y * - ux t x y) zero2 zero2).

Lemma ex_tgv_exact : forall nu, exact_flow2 (ex_tgv nu).
Proof.
  intro nu. unfold exact_flow2, exact2, first2, ex_tgv. cbv zeta.
  cbn [g_u g_v g_p g_omega g_tp d_val d_t d_x d_y d_xx d_yy].
  destruct (tgv_u_partial nu) as [Ux [Uy [Ut [Uxx [Uyy [Uxy Uyx]]]]]].
  destruct (tgv_v_partial nu) as [Vx [Vy [Vt [Vxx [Vyy [Vxy Vyx]]]]]].
  destruct (tgv_p_partial nu) as [Px Py].
  repeat match goal with |- _ /\ _ => split end; try assumption.
  - intros t x y. reflexivity.
  - eapply partial_ext2; [| |exact (minus2 BX _ _ _ _ Vxx Uyx)];
      intros t x y; ring.
  - eapply partial_ext2; [| |exact (minus2 BY _ _ _ _ Vxy Uyy)];
      intros t x y; ring.
  - intros t x y. reflexivity.
  - exact (kinetic2_partial BX _ _ _ _ _ _ Px Ux Vx).
  - exact (kinetic2_partial BY _ _ _ _ _ _ Py Uy Vy).
Qed.

Lemma ex_tgv_smooth : forall nu,
  smooth2 (g_u (ex_tgv nu)) /\ smooth2 (g_v (ex_tgv nu)).
Proof.
  intro nu.
  destruct (tgv_u_partial nu) as [_ [_ [_ [_ [_ [Uxy Uyx]]]]]].
  destruct (tgv_v_partial nu) as [_ [_ [_ [_ [_ [Vxy Vyx]]]]]].
  split; eexists; split; eassumption.
Qed.

(** The potential of the Poisson case with exact derivatives. *)
Definition ex_phi (c : R -> R) (val c_t : field3) : comp3 :=
  mkcomp3 val c_t
    (fun t x y z => 2 * PI * c t * (cos (2 * PI * x) * sin (2 * PI * y)
       * sin (2 * PI * z)))
    (fun t x y z => 2 * PI * c t * (sin (2 * PI * x) * cos (2 * PI * y)
       * sin (2 * PI * z)))
    (fun t x y z => 2 * PI * c t * (sin (2 * PI * x) * sin (2 * PI * y)
       * cos (2 * PI * z)))
    (fun t x y z => - 4 * PI ^ 2 * c t * (sin (2 * PI * x)
       * sin (2 * PI * y) * sin (2 * PI * z)))
    (fun t x y z => - 4 * PI ^ 2 * c t * (sin (2 * PI * x)
       * sin (2 * PI * y) * sin (2 * PI * z)))
    (fun t x y z => - 4 * PI ^ 2 * c t * (sin (2 * PI * x)
       * sin (2 * PI * y) * sin (2 * PI * z))).

Lemma ex_poisson :
  exact3 (ex_phi (fun _ => 1) po_phi (fun t x y z => 1)).
Proof.
  unfold exact3, ex_phi, po_phi.
  cbn [c_val c_t c_x c_y c_z c_xx c_yy c_zz].
  repeat split; partial3; ring.
Qed.

Lemma ex_wave :
  exact3 (ex_phi (fun t => exp (t / PI)) wa_phi
            (fun t x y z => / PI * wa_phi t x y z)).
Proof.
  unfold exact3, ex_phi, wa_phi.
  cbn [c_val c_t c_x c_y c_z c_xx c_yy c_zz].
  repeat split; partial3; field; exact PI_neq0.
Qed.

(** The Laplacian of the wave function. *)
Lemma ex_tise : is_laplacian3 ti_psi (fun t x y z =>
  - 12 * PI ^ 2 * ti_psi t x y z).
Proof.
  intros qx qy qz qxx qyy qzz Qx Qy Qz Qxx Qyy Qzz t x y z.
  rewrite (same_partial2nd AX AX ti_psi qx
    (fun t x y z => 2 * PI * (cos (2 * PI * x) * sin (2 * PI * y)
       * sin (2 * PI * z))) qxx (fun t x y z => - 4 * PI ^ 2 * ti_psi t x y z)
    Qx) by (first [exact Qxx | unfold ti_psi; partial3; ring]).
  rewrite (same_partial2nd AY AY ti_psi qy
    (fun t x y z => 2 * PI * (sin (2 * PI * x) * cos (2 * PI * y)
       * sin (2 * PI * z))) qyy (fun t x y z => - 4 * PI ^ 2 * ti_psi t x y z)
    Qy) by (first [exact Qyy | unfold ti_psi; partial3; ring]).
  rewrite (same_partial2nd AZ AZ ti_psi qz
    (fun t x y z => 2 * PI * (sin (2 * PI * x) * sin (2 * PI * y)
       * cos (2 * PI * z))) qzz (fun t x y z => - 4 * PI ^ 2 * ti_psi t x y z)
    Qz) by (first [exact Qzz | unfold ti_psi; partial3; ring]).
  ring.
Qed.

(** The Stokes case with exact derivatives. *)
Definition ex_stokes : flow3 :=
  let S a := sin (2 * PI * a) in let C a := cos (2 * PI * a) in
  mkflow3 0
    (mkcomp3 st_u zero3
       (fun t x y z => - 2 * PI * (S x * S y * S z))
       (fun t x y z => 2 * PI * (C x * C y * S z))
       (fun t x y z => 2 * PI * (C x * S y * C z))
       (fun t x y z => - 4 * PI ^ 2 * (C x * S y * S z))
       (fun t x y z => - 4 * PI ^ 2 * (C x * S y * S z))
       (fun t x y z => - 4 * PI ^ 2 * (C x * S y * S z)))
    (mkcomp3 st_v zero3
       (fun t x y z => 2 * PI * (C x * C y * S z))
       (fun t x y z => - 2 * PI * (S x * S y * S z))
       (fun t x y z => 2 * PI * (S x * C y * C z))
       (fun t x y z => - 4 * PI ^ 2 * (S x * C y * S z))
       (fun t x y z => - 4 * PI ^ 2 * (S x * C y * S z))
       (fun t x y z => - 4 * PI ^ 2 * (S x * C y * S z)))
    (mkcomp3 st_w zero3
       (fun t x y z => - 4 * PI * (C x * S y * C z))
       (fun t x y z => - 4 * PI * (S x * C y * C z))
       (fun t x y z => 4 * PI * (S x * S y * S z))
       (fun t x y z => 8 * PI ^ 2 * (S x * S y * C z))
       (fun t x y z => 8 * PI ^ 2 * (S x * S y * C z))
       (fun t x y z => 8 * PI ^ 2 * (S x * S y * C z)))
    (mkcomp3 st_p zero3
       (fun t x y z => 2 * PI * (C x * S y * S z))
       (fun t x y z => 2 * PI * (S x * C y * S z))
       (fun t x y z => 2 * PI * (S x * S y * C z)) zero3 zero3 zero3).

Lemma ex_stokes_exact : exact_flow3 ex_stokes.
Proof.
  unfold exact_flow3, exact3, first3, ex_stokes, st_u, st_v, st_w, st_p,
    zero3. cbv zeta.
  cbn [f_u f_v f_w f_p c_val c_t c_x c_y c_z c_xx c_yy c_zz].
  repeat split; partial3; ring.
Qed.
