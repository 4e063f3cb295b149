(** Rules for partial derivatives; the Navier-Stokes equations. *)
From Coq Require Import Reals Lra.
From Verif Require Import FieldModel FieldSpec FieldProofs FieldProofs2
  ExactModel ExactSpec.
Open Scope R_scope.

(** *** Rules *)

Lemma partial_unique : forall a f g h,
  is_partial3 a f g -> is_partial3 a f h -> same3 g h.
Proof.
  intros a f g h G H t x y z.
  exact (uniqueness_limite _ _ _ _ (G t x y z) (H t x y z)).
Qed.

Lemma lim_ext : forall f g x l, (forall s, f s = g s) ->
  derivable_pt_lim f x l -> derivable_pt_lim g x l.
Proof.
  intros f g x l E D eps Heps. destruct (D eps Heps) as [d Hd].
  exists d. intros h Hh Hd'. rewrite <- !E. apply Hd; assumption.
Qed.

Lemma partial_ext : forall a f f' g g', same3 f f' -> same3 g g' ->
  is_partial3 a f g -> is_partial3 a f' g'.
Proof.
  intros a f f' g g' Ef Eg D t x y z. rewrite <- Eg.
  apply (lim_ext (line3 a f t x y z)); [|apply D].
  intro s. destruct a; cbn [line3]; apply Ef.
Qed.

Lemma partial_plus : forall a f f' g g',
  is_partial3 a f f' -> is_partial3 a g g' ->
  is_partial3 a (fun t x y z => f t x y z + g t x y z)
                (fun t x y z => f' t x y z + g' t x y z).
Proof.
  intros a f f' g g' Df Dg t x y z.
  assert (D := derivable_pt_lim_plus _ _ _ _ _ (Df t x y z) (Dg t x y z)).
  destruct a; exact D.
Qed.

Lemma partial_minus : forall a f f' g g',
  is_partial3 a f f' -> is_partial3 a g g' ->
  is_partial3 a (fun t x y z => f t x y z - g t x y z)
                (fun t x y z => f' t x y z - g' t x y z).
Proof.
  intros a f f' g g' Df Dg t x y z.
  assert (D := derivable_pt_lim_minus _ _ _ _ _ (Df t x y z) (Dg t x y z)).
  destruct a; exact D.
Qed.

Lemma partial_mult : forall a f f' g g',
  is_partial3 a f f' -> is_partial3 a g g' ->
  is_partial3 a (fun t x y z => f t x y z * g t x y z)
    (fun t x y z => f' t x y z * g t x y z + f t x y z * g' t x y z).
Proof.
  intros a f f' g g' Df Dg t x y z.
  assert (D := derivable_pt_lim_mult _ _ _ _ _ (Df t x y z) (Dg t x y z)).
  destruct a; exact D.
Qed.

Lemma partial_scal : forall a k f f', is_partial3 a f f' ->
  is_partial3 a (fun t x y z => k * f t x y z)
                (fun t x y z => k * f' t x y z).
Proof.
  intros a k f f' Df t x y z.
  assert (D := derivable_pt_lim_scal _ k _ _ (Df t x y z)).
  destruct a; exact D.
Qed.

Lemma partial_zero : forall a, is_partial3 a zero3 zero3.
Proof.
  intros a t x y z.
  assert (D := derivable_pt_lim_const 0 (coordinate3 a t x y z)).
  destruct a; exact D.
Qed.

(** *** Navier-Stokes *)

Lemma kinetic_partial : forall a u u' v v' w w',
  is_partial3 a u u' -> is_partial3 a v v' -> is_partial3 a w w' ->
  is_partial3 a
    (fun t x y z => / 2 * (u t x y z ^ 2 + v t x y z ^ 2 + w t x y z ^ 2))
    (fun t x y z => u t x y z * u' t x y z + v t x y z * v' t x y z
                    + w t x y z * w' t x y z).
Proof.
  intros a u u' v v' w w' Du Dv Dw.
  assert (D := partial_scal a (/ 2) _ _
    (partial_plus a _ _ _ _
      (partial_plus a _ _ _ _ (partial_mult a _ _ _ _ Du Du)
                              (partial_mult a _ _ _ _ Dv Dv))
      (partial_mult a _ _ _ _ Dw Dw))).
  apply (partial_ext a _ _ _ _) with (3 := D).
  - intros t x y z. cbv beta. field.
  - intros t x y z. cbv beta. field.
Qed.

Lemma total_pressure_gradient : forall e, exact_flow3 e ->
  is_partial3 AX (total_pressure3 e) (tp_x3 e) /\
  is_partial3 AY (total_pressure3 e) (tp_y3 e) /\
  is_partial3 AZ (total_pressure3 e) (tp_z3 e).
Proof.
  intros e [[_ [Ux [Uy [Uz _]]]] [[_ [Vx [Vy [Vz _]]]]
    [[_ [Wx [Wy [Wz _]]]] [Px [Py Pz]]]]].
  split; [|split].
  - exact (partial_plus AX _ _ _ _ Px (kinetic_partial AX _ _ _ _ _ _
      Ux Vx Wx)).
  - exact (partial_plus AY _ _ _ _ Py (kinetic_partial AY _ _ _ _ _ _
      Uy Vy Wy)).
  - exact (partial_plus AZ _ _ _ _ Pz (kinetic_partial AZ _ _ _ _ _ _
      Uz Vz Wz)).
Qed.

Lemma same_partial2nd : forall a b q qa qb q1 q2,
  is_partial3 a q qa -> is_partial3 a q qb ->
  is_partial3 b qa q1 -> is_partial3 b qb q2 -> same3 q1 q2.
Proof.
  intros a b q qa qb q1 q2 A B C D.
  apply (partial_unique b qb); [|exact D].
  apply (partial_ext b qa qb q1 q1); [|intros t x y z; reflexivity|exact C].
  exact (partial_unique a q qa qb A B).
Qed.

Lemma navier_stokes3 : forall e, exact_flow3 e ->
  momentum3 (f_nu e) (c_val (f_u e)) (c_val (f_v e)) (c_val (f_w e))
    (c_val (f_p e)) (force_x3 e) (force_y3 e) (force_z3 e).
Proof.
  intros e [[Ut [Ux [Uy [Uz [Uxx [Uyy Uzz]]]]]]
    [[Vt [Vx [Vy [Vz [Vxx [Vyy Vzz]]]]]]
    [[Wt [Wx [Wy [Wz [Wxx [Wyy Wzz]]]]]] [Px [Py Pz]]]]]
    px py pz Dx Dy Dz.
  split; [|split]; intros qt qx qy qz qxx qyy qzz Qt Qx Qy Qz Qxx Qyy Qzz
    t x y z.
  - unfold force_x3, omega_y3, omega_z3, tp_x3, ke_x3.
    rewrite (partial_unique _ _ _ _ Ut Qt t x y z).
    rewrite <- (partial_unique _ _ _ _ Ux Qx t x y z).
    rewrite <- (partial_unique _ _ _ _ Uy Qy t x y z).
    rewrite <- (partial_unique _ _ _ _ Uz Qz t x y z).
    rewrite (partial_unique _ _ _ _ Px Dx t x y z).
    rewrite (same_partial2nd _ _ _ _ _ _ _ Ux Qx Uxx Qxx t x y z).
    rewrite (same_partial2nd _ _ _ _ _ _ _ Uy Qy Uyy Qyy t x y z).
    rewrite (same_partial2nd _ _ _ _ _ _ _ Uz Qz Uzz Qzz t x y z).
    ring.
  - unfold force_y3, omega_x3, omega_z3, tp_y3, ke_y3.
    rewrite (partial_unique _ _ _ _ Vt Qt t x y z).
    rewrite <- (partial_unique _ _ _ _ Vx Qx t x y z).
    rewrite <- (partial_unique _ _ _ _ Vy Qy t x y z).
    rewrite <- (partial_unique _ _ _ _ Vz Qz t x y z).
    rewrite (partial_unique _ _ _ _ Py Dy t x y z).
    rewrite (same_partial2nd _ _ _ _ _ _ _ Vx Qx Vxx Qxx t x y z).
    rewrite (same_partial2nd _ _ _ _ _ _ _ Vy Qy Vyy Qyy t x y z).
    rewrite (same_partial2nd _ _ _ _ _ _ _ Vz Qz Vzz Qzz t x y z).
    ring.
  - unfold force_z3, omega_x3, omega_y3, tp_z3, ke_z3.
    rewrite (partial_unique _ _ _ _ Wt Qt t x y z).
    rewrite <- (partial_unique _ _ _ _ Wx Qx t x y z).
    rewrite <- (partial_unique _ _ _ _ Wy Qy t x y z).
    rewrite <- (partial_unique _ _ _ _ Wz Qz t x y z).
    rewrite (partial_unique _ _ _ _ Pz Dz t x y z).
    rewrite (same_partial2nd _ _ _ _ _ _ _ Wx Qx Wxx Qxx t x y z).
    rewrite (same_partial2nd _ _ _ _ _ _ _ Wy Qy Wyy Qyy t x y z).
    rewrite (same_partial2nd _ _ _ _ _ _ _ Wz Qz Wzz Qzz t x y z).
    ring.
Qed.

Lemma vorticity3 : forall e, exact_flow3 e ->
  is_curl3 (c_val (f_u e)) (c_val (f_v e)) (c_val (f_w e))
    (omega_x3 e) (omega_y3 e) (omega_z3 e) /\
  is_div3 (c_val (f_u e)) (c_val (f_v e)) (c_val (f_w e))
    (div_velocity3 e).
Proof.
  intros e [[_ [Ux [Uy [Uz _]]]] [[_ [Vx [Vy [Vz _]]]]
    [[_ [Wx [Wy [Wz _]]]] _]]].
  split.
  - intros uy uz vx vz wx wy Duy Duz Dvx Dvz Dwx Dwy.
    split; [|split]; intros t x y z.
    + unfold omega_x3. rewrite (partial_unique _ _ _ _ Wy Dwy t x y z).
      rewrite (partial_unique _ _ _ _ Vz Dvz t x y z). reflexivity.
    + unfold omega_y3. rewrite (partial_unique _ _ _ _ Uz Duz t x y z).
      rewrite (partial_unique _ _ _ _ Wx Dwx t x y z). reflexivity.
    + unfold omega_z3. rewrite (partial_unique _ _ _ _ Vx Dvx t x y z).
      rewrite (partial_unique _ _ _ _ Uy Duy t x y z). reflexivity.
  - intros ux vy wz Dux Dvy Dwz t x y z. unfold div_velocity3.
    rewrite (partial_unique _ _ _ _ Ux Dux t x y z).
    rewrite (partial_unique _ _ _ _ Vy Dvy t x y z).
    rewrite (partial_unique _ _ _ _ Wz Dwz t x y z). reflexivity.
Qed.

(** The divergence of the vorticity is zero; its curl is the gradient of the
    divergence minus the Laplacian. *)
Lemma vorticity_second3 : forall e, exact_flow3 e ->
  smooth3 (f_u e) -> smooth3 (f_v e) -> smooth3 (f_w e) ->
  is_div3 (omega_x3 e) (omega_y3 e) (omega_z3 e) zero3 /\
  forall gx gy gz : field3,
  is_partial3 AX (div_velocity3 e) gx ->
  is_partial3 AY (div_velocity3 e) gy ->
  is_partial3 AZ (div_velocity3 e) gz ->
  is_curl3 (omega_x3 e) (omega_y3 e) (omega_z3 e)
    (fun t x y z => gx t x y z + m_laplace3 (f_u e) t x y z)
    (fun t x y z => gy t x y z + m_laplace3 (f_v e) t x y z)
    (fun t x y z => gz t x y z + m_laplace3 (f_w e) t x y z).
Proof.
  intros e [[_ [_ [_ [_ [Uxx [Uyy Uzz]]]]]] [[_ [_ [_ [_ [Vxx [Vyy Vzz]]]]]]
    [[_ [_ [_ [_ [Wxx [Wyy Wzz]]]]]] _]]]
    [uxy [uxz [uyz [U1 [U2 [U3 [U4 [U5 U6]]]]]]]]
    [vxy [vxz [vyz [V1 [V2 [V3 [V4 [V5 V6]]]]]]]]
    [wxy [wxz [wyz [W1 [W2 [W3 [W4 [W5 W6]]]]]]]].
  split.
  - intros ox oy oz Dx Dy Dz t x y z. unfold zero3.
    rewrite (partial_unique _ _ _ _ Dx (partial_minus _ _ _ _ _ W2 V4)
      t x y z).
    rewrite (partial_unique _ _ _ _ Dy (partial_minus _ _ _ _ _ U6 W1)
      t x y z).
    rewrite (partial_unique _ _ _ _ Dz (partial_minus _ _ _ _ _ V3 U5)
      t x y z).
    ring.
  - intros gx gy gz Gx Gy Gz oxy oxz oyx oyz ozx ozy Dxy Dxz Dyx Dyz Dzx
      Dzy.
    assert (Ex := partial_unique _ _ _ _ Gx
      (partial_plus _ _ _ _ _ (partial_plus _ _ _ _ _ Uxx V2) W4)).
    assert (Ey := partial_unique _ _ _ _ Gy
      (partial_plus _ _ _ _ _ (partial_plus _ _ _ _ _ U1 Vyy) W6)).
    assert (Ez := partial_unique _ _ _ _ Gz
      (partial_plus _ _ _ _ _ (partial_plus _ _ _ _ _ U3 V5) Wzz)).
    split; [|split]; intros t x y z; unfold m_laplace3.
    + rewrite (Ex t x y z).
      rewrite (partial_unique _ _ _ _ Dzy (partial_minus _ _ _ _ _ V1 Uyy)
        t x y z).
      rewrite (partial_unique _ _ _ _ Dyz (partial_minus _ _ _ _ _ Uzz W3)
        t x y z).
      ring.
    + rewrite (Ey t x y z).
      rewrite (partial_unique _ _ _ _ Dxz (partial_minus _ _ _ _ _ W5 Vzz)
        t x y z).
      rewrite (partial_unique _ _ _ _ Dzx (partial_minus _ _ _ _ _ Vxx U2)
        t x y z).
      ring.
    + rewrite (Ez t x y z).
      rewrite (partial_unique _ _ _ _ Dyx (partial_minus _ _ _ _ _ U4 Wxx)
        t x y z).
      rewrite (partial_unique _ _ _ _ Dxy (partial_minus _ _ _ _ _ Wyy V6)
        t x y z).
      ring.
Qed.

(** For a flow without divergence the coded curl of the vorticity is its
    curl. *)
Lemma curl_vorticity3 : forall e, exact_flow3 e ->
  smooth3 (f_u e) -> smooth3 (f_v e) -> smooth3 (f_w e) ->
  same3 (div_velocity3 e) zero3 ->
  is_curl3 (omega_x3 e) (omega_y3 e) (omega_z3 e)
    (m_laplace3 (f_u e)) (m_laplace3 (f_v e)) (m_laplace3 (f_w e)).
Proof.
  intros e He Hu Hv Hw Hd.
  destruct (vorticity_second3 e He Hu Hv Hw) as [_ H].
  assert (D : forall a, is_partial3 a (div_velocity3 e) zero3).
  { intro a. apply (partial_ext a zero3 _ zero3 zero3).
    - intros t x y z. symmetry. apply Hd.
    - intros t x y z. reflexivity.
    - apply partial_zero. }
  assert (K := H zero3 zero3 zero3 (D AX) (D AY) (D AZ)).
  intros uy uz vx vz wx wy D1 D2 D3 D4 D5 D6.
  destruct (K uy uz vx vz wx wy D1 D2 D3 D4 D5 D6) as [K1 [K2 K3]].
  split; [|split]; intros t x y z.
  - rewrite <- (K1 t x y z). unfold zero3. ring.
  - rewrite <- (K2 t x y z). unfold zero3. ring.
  - rewrite <- (K3 t x y z). unfold zero3. ring.
Qed.

(** Stokes: [curl curl u + grad p] for a flow without divergence. *)
Lemma stokes3 : forall e, exact_flow3 e ->
  forall px py pz lu lv lw : field3,
  is_partial3 AX (c_val (f_p e)) px -> is_partial3 AY (c_val (f_p e)) py ->
  is_partial3 AZ (c_val (f_p e)) pz ->
  is_laplacian3 (c_val (f_u e)) lu -> is_laplacian3 (c_val (f_v e)) lv ->
  is_laplacian3 (c_val (f_w e)) lw ->
  same3 (stokes_x3 e) (fun t x y z => px t x y z - lu t x y z) /\
  same3 (stokes_y3 e) (fun t x y z => py t x y z - lv t x y z) /\
  same3 (stokes_z3 e) (fun t x y z => pz t x y z - lw t x y z).
Proof.
  intros e [[_ [Ux [Uy [Uz [Uxx [Uyy Uzz]]]]]]
    [[_ [Vx [Vy [Vz [Vxx [Vyy Vzz]]]]]]
    [[_ [Wx [Wy [Wz [Wxx [Wyy Wzz]]]]]] [Px [Py Pz]]]]]
    px py pz lu lv lw Dx Dy Dz Lu Lv Lw.
  assert (Eu := Lu _ _ _ _ _ _ Ux Uy Uz Uxx Uyy Uzz).
  assert (Ev := Lv _ _ _ _ _ _ Vx Vy Vz Vxx Vyy Vzz).
  assert (Ew := Lw _ _ _ _ _ _ Wx Wy Wz Wxx Wyy Wzz).
  split; [|split]; intros t x y z.
  - unfold stokes_x3, m_laplace3. rewrite (Eu t x y z).
    rewrite (partial_unique _ _ _ _ Px Dx t x y z). ring.
  - unfold stokes_y3, m_laplace3. rewrite (Ev t x y z).
    rewrite (partial_unique _ _ _ _ Py Dy t x y z). ring.
  - unfold stokes_z3, m_laplace3. rewrite (Ew t x y z).
    rewrite (partial_unique _ _ _ _ Pz Dz t x y z). ring.
Qed.

(** *** Poisson and wave equations *)

Lemma poisson3 : forall phi, exact3 phi ->
  is_laplacian3 (c_val phi) (fun t x y z => - poisson_f phi t x y z).
Proof.
  intros phi [_ [Px [Py [Pz [Pxx [Pyy Pzz]]]]]] qx qy qz qxx qyy qzz
    Qx Qy Qz Qxx Qyy Qzz t x y z. unfold poisson_f.
  rewrite (same_partial2nd _ _ _ _ _ _ _ Px Qx Pxx Qxx t x y z).
  rewrite (same_partial2nd _ _ _ _ _ _ _ Py Qy Pyy Qyy t x y z).
  rewrite (same_partial2nd _ _ _ _ _ _ _ Pz Qz Pzz Qzz t x y z).
  ring.
Qed.

Lemma wave3 : forall phi own ptt lap, exact3 phi ->
  is_partial3 AT (c_t phi) (psi_t phi own) ->
  is_partial3 AT (c_t phi) ptt -> is_laplacian3 (c_val phi) lap ->
  same3 (wave_f phi own) (fun t x y z => ptt t x y z - lap t x y z).
Proof.
  intros phi own ptt lap [_ [Px [Py [Pz [Pxx [Pyy Pzz]]]]]] D1 D2 L t x y z.
  unfold wave_f.
  rewrite (partial_unique _ _ _ _ D1 D2 t x y z).
  rewrite (L _ _ _ _ _ _ Px Py Pz Pxx Pyy Pzz t x y z). ring.
Qed.

(** The source is the Laplacian of psi, when psi satisfies the equation. *)
Lemma schroedinger3 : forall hbar m E V psi lap, m <> 0 -> hbar <> 0 ->
  is_laplacian3 (c_val psi) lap ->
  (same3 (schroedinger_f hbar m E V psi) lap <->
   same3 (fun t x y z => - (hbar ^ 2 / (2 * m)) * lap t x y z
            + V t x y z * c_val psi t x y z)
         (fun t x y z => E * c_val psi t x y z)).
Proof.
  intros hbar m E V psi lap Hm Hh _.
  assert (A : alpha hbar m <> 0).
  { unfold alpha. intro A.
    assert (B : hbar ^ 2 = 0).
    { replace (hbar ^ 2) with (hbar ^ 2 / (2 * m) * (2 * m)) by (field; auto).
      rewrite A. ring. }
    revert B. apply pow_nonzero. exact Hh. }
  unfold schroedinger_f. split; intros H t x y z; specialize (H t x y z);
    cbv beta zeta in *.
  - fold (alpha hbar m). rewrite <- H. field. exact A.
  - fold (alpha hbar m) in H.
    apply Rmult_eq_reg_l with (alpha hbar m); [|exact A].
    rewrite <- Rmult_comm. unfold Rdiv. rewrite Rmult_assoc.
    rewrite Rinv_l by exact A. lra.
Qed.
