(** The induction equation of the MHD solutions, and their numbers. *)
From Coq Require Import Reals Lra.
From Verif Require Import FieldModel FieldSpec FieldProofs ExactModel ExactSpec
  ExactProofs2 ExactProofs3.
Open Scope R_scope.

Lemma induction_ok : forall m,
  numerical3 (m_bx m) -> numerical3 (m_by m) -> numerical3 (m_bz m) ->
  forall a, a <> AT ->
  same3 (by_axis (j_x m) (j_y m) (j_z m) a)
        (curl_by diff3 (magnetic_of m) a) /\
  same3 (by_axis (uxb_x m) (uxb_y m) (uxb_z m) a)
        (cross_of (velocity_of m) (magnetic_of m) a) /\
  same3 (by_axis (r_x m) (r_y m) (r_z m) a)
        (fun t x y z => diff3 AT (magnetic_of m a) t x y z
                        + curl_by diff3 (ohm_of m) a t x y z).
Proof.
  intros m Bx By Bz.
  assert (J : forall a, a <> AT -> same3 (by_axis (j_x m) (j_y m) (j_z m) a)
                                         (curl_by diff3 (magnetic_of m) a)).
  { intros a N t x y z.
    destruct (numerical_diff _ Bx) as [Xt [Xx [Xy [Xz _]]]].
    destruct (numerical_diff _ By) as [Yt [Yx [Yy [Yz _]]]].
    destruct (numerical_diff _ Bz) as [Zt [Zx [Zy [Zz _]]]].
    destruct a; [congruence| | |];
      unfold curl_by, magnetic_of, j_x, j_y, j_z; cbn [by_axis turn];
      rewrite ?Xx, ?Xy, ?Xz, ?Yx, ?Yy, ?Yz, ?Zx, ?Zy, ?Zz; reflexivity. }
  assert (E : forall a, a <> AT -> same3 (by_axis (e_x m) (e_y m) (e_z m) a)
                                         (ohm_of m a)).
  { intros a N t x y z. unfold ohm_of. rewrite <- (J a N).
    destruct a; [congruence|reflexivity|reflexivity|reflexivity]. }
  intros a N. split; [apply J, N|]. split.
  - intros t x y z. destruct a; [congruence| | |];
      unfold cross_of, uxb_x, uxb_y, uxb_z; cbn [by_axis turn];
      reflexivity.
  - intros t x y z.
    destruct (numerical_diff _ Bx) as [Xt _].
    destruct (numerical_diff _ By) as [Yt _].
    destruct (numerical_diff _ Bz) as [Zt _].
    assert (Ex := E AX ltac:(discriminate)).
    assert (Ey := E AY ltac:(discriminate)).
    assert (Ez := E AZ ltac:(discriminate)).
    cbn [by_axis] in Ex, Ey, Ez.
    destruct a; [congruence| | |]; cbn [by_axis]; unfold curl_by, magnetic_of;
      cbn [by_axis turn]; unfold r_x, r_y, r_z, curl_e_x, curl_e_y, curl_e_z;
      rewrite !partial3_diff;
      rewrite ?(diff3_ext AX _ _ Ey), ?(diff3_ext AX _ _ Ez),
        ?(diff3_ext AY _ _ Ex), ?(diff3_ext AY _ _ Ez),
        ?(diff3_ext AZ _ _ Ex), ?(diff3_ext AZ _ _ Ey), ?Xt, ?Yt, ?Zt;
      reflexivity.
Qed.

Lemma numbers_ok : forall rf rm c u v w p bx by_ bz m,
  make_mhd rf rm c u v w p bx by_ bz = Some m ->
  reciprocal rf (f_nu (m_flow m)) /\ reciprocal rm (m_rm m) /\ m_c m = c.
Proof.
  assert (O : forall r x, one_over r = Some x -> reciprocal r x).
  { intros [a|] x H; cbn [one_over reciprocal] in *.
    - destruct (is_positive a) eqn:P; [|discriminate].
      apply is_positive_spec in P. injection H as <-. field. lra.
    - injection H as <-. reflexivity. }
  intros rf rm c u v w p bx by_ bz m H. unfold make_mhd in H.
  destruct (one_over rf) as [f|] eqn:F; [|discriminate].
  destruct (one_over rm) as [g|] eqn:G; [|discriminate].
  injection H as <-. cbn [m_flow f_nu m_rm m_c].
  split; [apply O, F|]. split; [apply O, G|reflexivity].
Qed.

(** Densities. *)
Lemma densities3 : forall e, exact_flow3 e ->
  forall a b c : field3,
  is_curl3 (c_val (f_u e)) (c_val (f_v e)) (c_val (f_w e)) a b c ->
  same3 (helicity3 e) (fun t x y z => c_val (f_u e) t x y z * a t x y z
    + c_val (f_v e) t x y z * b t x y z + c_val (f_w e) t x y z * c t x y z) /\
  same3 (enstrophy3 e) (fun t x y z =>
    (a t x y z * a t x y z + b t x y z * b t x y z + c t x y z * c t x y z)
    / 2).
Proof.
  intros e [[_ [_ [Uy [Uz _]]]] [[_ [Vx [_ [Vz _]]]] [[_ [Wx [Wy _]]] _]]]
    a b c C.
  destruct (C _ _ _ _ _ _ Uy Uz Vx Vz Wx Wy) as [A [B G]].
  split; intros t x y z; unfold helicity3, enstrophy3, omega_x3, omega_y3,
    omega_z3; rewrite (A t x y z), (B t x y z), (G t x y z); field.
Qed.

Lemma made_flow2 : forall nu u v p om tp,
  exact2 u -> exact2 v -> first2 p ->
  same2 (d_val om) (d_val (g_omega (make_flow2 nu u v p None))) -> first2 om ->
  same2 (d_val tp) (d_val (g_tp (make_flow2 nu u v p None))) -> first2 tp ->
  exact_flow2 (mkflow2 nu u v p om tp).
Proof.
  intros nu u v p om tp U V P O [Ox Oy] T [Tx Ty].
  repeat split; try (exact U || exact V || exact (proj1 P) || exact (proj2 P)
    || exact Ox || exact Oy || exact Tx || exact Ty);
    try apply U; try apply V.
  - cbn [g_omega g_u g_v]. intros t x y. rewrite O. reflexivity.
  - cbn [g_tp g_u g_v g_p]. intros t x y. rewrite T.
    cbn [make_flow2 g_tp component2 d_val]. unfold tp2, kinetic2. field.
Qed.

Lemma palinstrophy_ok : forall e wx wy, exact_flow2 e ->
  is_partial2 BX (d_val (g_omega e)) wx ->
  is_partial2 BY (d_val (g_omega e)) wy ->
  same2 (palinstrophy2 e)
    (fun t x y => (wx t x y * wx t x y + wy t x y * wy t x y) / 2).
Proof.
  intros e wx wy [_ [_ [_ [_ [X [Y _]]]]]] Wx Wy t x y.
  unfold palinstrophy2, minus_omega_x2.
  rewrite (unique2 BX _ _ _ X Wx t x y), (unique2 BY _ _ _ Y Wy t x y). field.
Qed.
