(** Properties of the exact solutions. *)
From Coq Require Import Reals List Bool Lra.
From Verif Require Import FieldModel FieldSpec ExactModel ExactSpec
  ExactCaseModel ExactProofs ExactProofs2 ExactProofs3 ExactProofs4
  ExactProofs5 ExactProofs6 ExactExample.
Import ListNotations.
Open Scope R_scope.

(** C127: with right derivatives, velocity, pressure and body force satisfy
    the Navier-Stokes equations in convective form. *)
Theorem C127_navier_stokes : forall e, exact_flow3 e ->
  momentum3 (f_nu e) (c_val (f_u e)) (c_val (f_v e)) (c_val (f_w e))
    (c_val (f_p e)) (force_x3 e) (force_y3 e) (force_z3 e).
Proof. exact navier_stokes3. Qed.
Print Assumptions C127_navier_stokes.

Theorem C127_vorticity : forall e, exact_flow3 e ->
  is_curl3 (c_val (f_u e)) (c_val (f_v e)) (c_val (f_w e))
    (omega_x3 e) (omega_y3 e) (omega_z3 e) /\
  is_div3 (c_val (f_u e)) (c_val (f_v e)) (c_val (f_w e))
    (div_velocity3 e).
Proof. exact vorticity3. Qed.
Print Assumptions C127_vorticity.

Theorem C127_total_pressure : forall e, exact_flow3 e ->
  is_partial3 AX (total_pressure3 e) (tp_x3 e) /\
  is_partial3 AY (total_pressure3 e) (tp_y3 e) /\
  is_partial3 AZ (total_pressure3 e) (tp_z3 e).
Proof. exact total_pressure_gradient. Qed.
Print Assumptions C127_total_pressure.

(** C127: the vorticity has no divergence; what is called its curl is its
    curl for a velocity without divergence. *)
Theorem C127_curl_of_vorticity : forall e, exact_flow3 e ->
  smooth3 (f_u e) -> smooth3 (f_v e) -> smooth3 (f_w e) ->
  is_div3 (omega_x3 e) (omega_y3 e) (omega_z3 e) zero3 /\
  forall gx gy gz : field3,
  is_partial3 AX (div_velocity3 e) gx ->
  is_partial3 AY (div_velocity3 e) gy ->
  is_partial3 AZ (div_velocity3 e) gz ->
  is_curl3 (omega_x3 e) (omega_y3 e) (omega_z3 e)
    (fun t x y z => gx t x y z + m_laplace3 (f_u e) t x y z)
    (fun t x y z => gy t x y z + m_laplace3 (f_v e) t x y z)
    (fun t x y z => gz t x y z + m_laplace3 (f_w e) t x y z).
Proof. exact vorticity_second3. Qed.
Print Assumptions C127_curl_of_vorticity.

Theorem C127_solenoidal_curl : forall e, exact_flow3 e ->
  smooth3 (f_u e) -> smooth3 (f_v e) -> smooth3 (f_w e) ->
  same3 (div_velocity3 e) zero3 ->
  is_curl3 (omega_x3 e) (omega_y3 e) (omega_z3 e)
    (m_laplace3 (f_u e)) (m_laplace3 (f_v e)) (m_laplace3 (f_w e)).
Proof. exact curl_vorticity3. Qed.
Print Assumptions C127_solenoidal_curl.

(** C127: helicity and enstrophy densities. *)
Theorem C127_densities : forall e, exact_flow3 e ->
  forall a b c : field3,
  is_curl3 (c_val (f_u e)) (c_val (f_v e)) (c_val (f_w e)) a b c ->
  same3 (helicity3 e) (fun t x y z => c_val (f_u e) t x y z * a t x y z
    + c_val (f_v e) t x y z * b t x y z + c_val (f_w e) t x y z * c t x y z) /\
  same3 (enstrophy3 e) (fun t x y z =>
    (a t x y z * a t x y z + b t x y z * b t x y z + c t x y z * c t x y z)
    / 2).
Proof. exact densities3. Qed.
Print Assumptions C127_densities.

(** C127: Stokes. *)
Theorem C127_stokes : forall e, exact_flow3 e ->
  forall px py pz lu lv lw : field3,
  is_partial3 AX (c_val (f_p e)) px -> is_partial3 AY (c_val (f_p e)) py ->
  is_partial3 AZ (c_val (f_p e)) pz ->
  is_laplacian3 (c_val (f_u e)) lu -> is_laplacian3 (c_val (f_v e)) lv ->
  is_laplacian3 (c_val (f_w e)) lw ->
  same3 (stokes_x3 e) (fun t x y z => px t x y z - lu t x y z) /\
  same3 (stokes_y3 e) (fun t x y z => py t x y z - lv t x y z) /\
  same3 (stokes_z3 e) (fun t x y z => pz t x y z - lw t x y z).
Proof. exact stokes3. Qed.
Print Assumptions C127_stokes.

(** The dissipation case is such a flow. *)
Example C127_case : forall nu, exact_flow3 (diss nu) /\
  smooth3 (f_u (diss nu)) /\ smooth3 (f_v (diss nu)) /\
  smooth3 (f_w (diss nu)).
Proof. intro nu. exact (conj (diss_exact nu) diss_smooth). Qed.

(** C128: the MHD momentum source differs from the documented left hand side
    by the gradient of the divergence of the velocity, divided by Rf. *)
Theorem C128_momentum : forall m, numerical_flow3 (m_flow m) ->
  same3 (documented_x m) (fun t x y z => mhd_x m t x y z
    + f_nu (m_flow m) * diff3 AX (div_velocity3 (m_flow m)) t x y z) /\
  same3 (documented_y m) (fun t x y z => mhd_y m t x y z
    + f_nu (m_flow m) * diff3 AY (div_velocity3 (m_flow m)) t x y z) /\
  same3 (documented_z m) (fun t x y z => mhd_z m t x y z
    + f_nu (m_flow m) * diff3 AZ (div_velocity3 (m_flow m)) t x y z).
Proof. exact documented_mhd. Qed.
Print Assumptions C128_momentum.

(** C128: so it is not the documented one for AS1 with its default
    numbers. *)
Theorem C128_as1_refuted : forall m,
  as1 (Number 10000) (Number 10000) 1 = Some m ->
  documented_x m 0 (/ 4) (/ 2) (/ 2) <> mhd_x m 0 (/ 4) (/ 2) (/ 2).
Proof. exact as1_wrong. Qed.
Print Assumptions C128_as1_refuted.

Example C128_as1_exists :
  exists m, as1 (Number 10000) (Number 10000) 1 = Some m.
Proof.
  apply make_mhd_spec. split; right; exists 10000; (split; [reflexivity|lra]).
Qed.

(** C128: without divergence it is the documented one, the magnetic field
    has no divergence and neither has the electric source: AS2 and
    MHD_SinCos1. *)
Theorem C128_as2 : forall rf rm c m, as2 rf rm c = Some m ->
  same3 (div_velocity3 (m_flow m)) zero3 /\ same3 (div_b m) zero3 /\
  same3 (documented_x m) (mhd_x m) /\ same3 (documented_y m) (mhd_y m) /\
  same3 (documented_z m) (mhd_z m) /\
  same3 (fun t x y z => diff3 AX (r_x m) t x y z + diff3 AY (r_y m) t x y z
                        + diff3 AZ (r_z m) t x y z) zero3.
Proof.
  exact (fun rf rm c m H => plain_mhd rf rm c _ _ _ _ _ _ _ m H
    (proj1 as2_div) (proj2 as2_div)).
Qed.
Print Assumptions C128_as2.

Theorem C128_sin_cos : forall rf rm c m, msc rf rm c = Some m ->
  same3 (div_velocity3 (m_flow m)) zero3 /\ same3 (div_b m) zero3 /\
  same3 (documented_x m) (mhd_x m) /\ same3 (documented_y m) (mhd_y m) /\
  same3 (documented_z m) (mhd_z m) /\
  same3 (fun t x y z => diff3 AX (r_x m) t x y z + diff3 AY (r_y m) t x y z
                        + diff3 AZ (r_z m) t x y z) zero3.
Proof.
  exact (fun rf rm c m H => plain_mhd rf rm c _ _ _ _ _ _ _ m H
    msc_div msc_div).
Qed.
Print Assumptions C128_sin_cos.

Theorem C128_as3 :
  same3 (fun t x y z => diff3 AX as3_u t x y z + diff3 AY as3_v t x y z
                        + diff3 AZ as3_w t x y z) zero3 /\
  same3 (fun t x y z => diff3 AX as3_bx t x y z + diff3 AY as3_by t x y z
                        + diff3 AZ as3_bz t x y z) zero3.
Proof. exact as3_div. Qed.
Print Assumptions C128_as3.

Theorem C128_as1_magnetic : forall rf rm c m, as1 rf rm c = Some m ->
  same3 (div_b m) zero3.
Proof. exact as1_div_b. Qed.
Print Assumptions C128_as1_magnetic.

(** C128: the curl and the divergence of the vorticity, and the divergence of
    the electric source. *)
Theorem C128_vorticity : forall e, numerical_flow3 e ->
  same3 (curl_omega_x e) (fun t x y z =>
    diff3 AX (div_velocity3 e) t x y z - laplace3 (f_u e) t x y z) /\
  same3 (curl_omega_y e) (fun t x y z =>
    diff3 AY (div_velocity3 e) t x y z - laplace3 (f_v e) t x y z) /\
  same3 (curl_omega_z e) (fun t x y z =>
    diff3 AZ (div_velocity3 e) t x y z - laplace3 (f_w e) t x y z) /\
  same3 (div_omega e) zero3.
Proof. exact curl_omega_numerical. Qed.
Print Assumptions C128_vorticity.

Theorem C128_electric : forall m,
  numerical3 (m_bx m) -> numerical3 (m_by m) -> numerical3 (m_bz m) ->
  same3 (fun t x y z => diff3 AX (r_x m) t x y z + diff3 AY (r_y m) t x y z
                        + diff3 AZ (r_z m) t x y z)
        (diff3 AT (div_b m)).
Proof. exact electric_source. Qed.
Print Assumptions C128_electric.

(** C128: the Reynolds numbers must be positive or 'infty'. *)
Theorem C128_reynolds : forall rf rm c u v w p bx by_ bz,
  (exists m, make_mhd rf rm c u v w p bx by_ bz = Some m) <->
  (valid_reynolds rf /\ valid_reynolds rm).
Proof. exact make_mhd_spec. Qed.
Print Assumptions C128_reynolds.

(** C128: the current is the curl of the magnetic field, and the electric
    source is the left hand side of the documented induction equation. *)
Theorem C128_induction : forall m,
  numerical3 (m_bx m) -> numerical3 (m_by m) -> numerical3 (m_bz m) ->
  forall a, a <> AT ->
  same3 (by_axis (j_x m) (j_y m) (j_z m) a)
        (curl_by diff3 (magnetic_of m) a) /\
  same3 (by_axis (uxb_x m) (uxb_y m) (uxb_z m) a)
        (cross_of (velocity_of m) (magnetic_of m) a) /\
  same3 (by_axis (r_x m) (r_y m) (r_z m) a)
        (fun t x y z => diff3 AT (magnetic_of m a) t x y z
                        + curl_by diff3 (ohm_of m) a t x y z).
Proof. exact induction_ok. Qed.
Print Assumptions C128_induction.

(** C128: the numbers are one over the Reynolds numbers, or zero. *)
Theorem C128_numbers : forall rf rm c u v w p bx by_ bz m,
  make_mhd rf rm c u v w p bx by_ bz = Some m ->
  reciprocal rf (f_nu (m_flow m)) /\ reciprocal rm (m_rm m) /\ m_c m = c.
Proof. exact numbers_ok. Qed.
Print Assumptions C128_numbers.

Example C128_case : exists m, as2 (Number 10) Infty (1 / 100) = Some m /\
  numerical_flow3 (m_flow m) /\ numerical3 (m_bx m) /\
  numerical3 (m_by m) /\ numerical3 (m_bz m).
Proof.
  unfold as2, make_mhd, one_over.
  replace (is_positive 10) with true
    by (symmetry; apply is_positive_spec; lra).
  eexists. repeat split; reflexivity.
Qed.

Example C128_case_numbers : forall m, as2 (Number 10) Infty 3 = Some m ->
  f_nu (m_flow m) = 1 / 10 /\ m_rm m = 0 /\ m_c m = 3.
Proof.
  intros m H. destruct (numbers_ok _ _ _ _ _ _ _ _ _ _ m H) as [A [B C]].
  cbn [reciprocal] in A, B. repeat split; [lra|exact B|exact C].
Qed.

(** C129: the body force in two dimensions; it has the gradient of the
    divergence of the velocity with the viscosity. *)
Theorem C129_navier_stokes : forall e, exact_flow2 e ->
  smooth2 (g_u e) -> smooth2 (g_v e) ->
  forall px py gx gy : field2,
  is_partial2 BX (d_val (g_p e)) px -> is_partial2 BY (d_val (g_p e)) py ->
  is_partial2 BX (div_velocity2 e) gx ->
  is_partial2 BY (div_velocity2 e) gy ->
  transport2 (g_nu e) (d_val (g_u e)) (d_val (g_v e)) (d_val (g_u e))
    (fun t x y => px t x y + g_nu e * gx t x y) (force_x2 e) /\
  transport2 (g_nu e) (d_val (g_u e)) (d_val (g_v e)) (d_val (g_v e))
    (fun t x y => py t x y + g_nu e * gy t x y) (force_y2 e).
Proof. exact navier_stokes2. Qed.
Print Assumptions C129_navier_stokes.

Theorem C129_incompressible : forall e, exact_flow2 e ->
  smooth2 (g_u e) -> smooth2 (g_v e) ->
  solenoidal2 (d_val (g_u e)) (d_val (g_v e)) ->
  momentum2 (g_nu e) (d_val (g_u e)) (d_val (g_v e)) (d_val (g_p e))
    (force_x2 e) (force_y2 e).
Proof. exact momentum_solenoidal2. Qed.
Print Assumptions C129_incompressible.

Theorem C129_euler : forall e, exact_flow2 e ->
  momentum2 0 (d_val (g_u e)) (d_val (g_v e)) (d_val (g_p e))
    (euler_x2 e) (euler_y2 e).
Proof. exact euler_flow2. Qed.
Print Assumptions C129_euler.

(** C129: the vorticity and total pressure that the object makes are the ones
    of the theorems above. *)
Theorem C129_made : forall nu u v p om tp,
  exact2 u -> exact2 v -> first2 p ->
  same2 (d_val om) (d_val (g_omega (make_flow2 nu u v p None))) -> first2 om ->
  same2 (d_val tp) (d_val (g_tp (make_flow2 nu u v p None))) -> first2 tp ->
  exact_flow2 (mkflow2 nu u v p om tp).
Proof. exact made_flow2. Qed.
Print Assumptions C129_made.

Theorem C129_palinstrophy : forall e wx wy, exact_flow2 e ->
  is_partial2 BX (d_val (g_omega e)) wx ->
  is_partial2 BY (d_val (g_omega e)) wy ->
  same2 (palinstrophy2 e)
    (fun t x y => (wx t x y * wx t x y + wy t x y * wy t x y) / 2).
Proof. exact palinstrophy_ok. Qed.
Print Assumptions C129_palinstrophy.

(** C129: the Taylor-Green vortex needs no body force. *)
Theorem C129_taylor_green : forall nu e, exact_flow2 e -> g_nu e = nu ->
  d_val (g_u e) = tgv_u nu -> d_val (g_v e) = tgv_v nu ->
  d_val (g_p e) = tgv_p nu ->
  same2 (force_x2 e) zero2 /\ same2 (force_y2 e) zero2.
Proof. exact tgv_case. Qed.
Print Assumptions C129_taylor_green.

Example C129_case : forall nu, exact_flow2 (ex_tgv nu) /\
  smooth2 (g_u (ex_tgv nu)) /\ smooth2 (g_v (ex_tgv nu)) /\
  d_val (g_u (ex_tgv nu)) = tgv_u nu /\ d_val (g_v (ex_tgv nu)) = tgv_v nu /\
  d_val (g_p (ex_tgv nu)) = tgv_p nu /\ g_nu (ex_tgv nu) = nu.
Proof.
  intro nu. destruct (ex_tgv_smooth nu) as [A B].
  repeat (split; [first [apply ex_tgv_exact|assumption|reflexivity]|]).
  reflexivity.
Qed.

Example C129_made_case : forall nu,
  exact_flow2 (mkflow2 nu (g_u (ex_tgv nu)) (g_v (ex_tgv nu)) (g_p (ex_tgv nu))
    (g_omega (ex_tgv nu)) (g_tp (ex_tgv nu))).
Proof.
  intro nu. destruct (ex_tgv_exact nu) as [U [V [P [O [Ox [Oy [T [Tx Ty]]]]]]]].
  refine (made_flow2 _ _ _ _ _ _ U V P _ (conj Ox Oy) _ (conj Tx Ty)).
  - intros t x y. rewrite O. reflexivity.
  - intros t x y. rewrite T. cbn [make_flow2 g_tp component2 d_val].
    unfold tp2, kinetic2. field.
Qed.

(** C130: Poisson, wave, Schroedinger, Laplace and Stokes equations. *)
Theorem C130_poisson : forall phi, exact3 phi ->
  is_laplacian3 (c_val phi) (fun t x y z => - poisson_f phi t x y z).
Proof. exact poisson3. Qed.
Print Assumptions C130_poisson.

Theorem C130_poisson_case : forall phi, exact3 phi -> c_val phi = po_phi ->
  same3 (poisson_f phi) (fun t x y z => 12 * PI ^ 2 *
    (sin (2 * PI * x) * sin (2 * PI * y) * sin (2 * PI * z))).
Proof. exact poisson_case. Qed.
Print Assumptions C130_poisson_case.

Example C130_poisson_exists : exists phi, exact3 phi /\ c_val phi = po_phi.
Proof. exact (ex_intro _ _ (conj ex_poisson eq_refl)). Qed.

Theorem C130_wave : forall phi own ptt lap, exact3 phi ->
  is_partial3 AT (c_t phi) (psi_t phi own) ->
  is_partial3 AT (c_t phi) ptt -> is_laplacian3 (c_val phi) lap ->
  same3 (wave_f phi own) (fun t x y z => ptt t x y z - lap t x y z).
Proof. exact wave3. Qed.
Print Assumptions C130_wave.

Theorem C130_wave_case : forall phi own, exact3 phi -> c_val phi = wa_phi ->
  is_partial3 AT (c_t phi) (psi_t phi own) ->
  same3 (wave_f phi own) (fun t x y z =>
    (/ PI ^ 2 + 12 * PI ^ 2) * wa_phi t x y z).
Proof. exact wave_case. Qed.
Print Assumptions C130_wave_case.

Example C130_wave_exists : exists phi, exact3 phi /\ c_val phi = wa_phi.
Proof. exact (ex_intro _ _ (conj ex_wave eq_refl)). Qed.

Theorem C130_schroedinger : forall hbar m E V psi lap, m <> 0 -> hbar <> 0 ->
  is_laplacian3 (c_val psi) lap ->
  (same3 (schroedinger_f hbar m E V psi) lap <->
   same3 (fun t x y z => - (hbar ^ 2 / (2 * m)) * lap t x y z
            + V t x y z * c_val psi t x y z)
         (fun t x y z => E * c_val psi t x y z)).
Proof. exact schroedinger3. Qed.
Print Assumptions C130_schroedinger.

Theorem C130_schroedinger_case : forall hbar m E psi l, hbar <> 0 ->
  m <> 0 -> c_val psi = ti_psi -> is_laplacian3 ti_psi l ->
  same3 (schroedinger_f hbar m E (ti_V hbar m E) psi) l.
Proof. exact schroedinger_case. Qed.
Print Assumptions C130_schroedinger_case.

Example C130_schroedinger_exists : is_laplacian3 ti_psi (fun t x y z =>
  - 12 * PI ^ 2 * ti_psi t x y z).
Proof. exact ex_tise. Qed.

Theorem C130_stokes_case : forall e, exact_flow3 e ->
  c_val (f_u e) = st_u -> c_val (f_v e) = st_v -> c_val (f_w e) = st_w ->
  c_val (f_p e) = st_p ->
  same3 (stokes_x3 e) (fun t x y z =>
    (12 * PI ^ 2 + 2 * PI) * st_u t x y z) /\
  same3 (stokes_y3 e) (fun t x y z =>
    (12 * PI ^ 2 + 2 * PI) * st_v t x y z) /\
  same3 (stokes_z3 e) (fun t x y z =>
    (12 * PI ^ 2 - PI) * st_w t x y z).
Proof. exact stokes_case. Qed.
Print Assumptions C130_stokes_case.

Example C130_stokes_exists : exact_flow3 ex_stokes /\
  c_val (f_u ex_stokes) = st_u /\ c_val (f_p ex_stokes) = st_p.
Proof. exact (conj ex_stokes_exact (conj eq_refl eq_refl)). Qed.

Theorem C130_laplace : forall p, exact2 p ->
  is_laplacian2 (d_val p) (laplace_f2 p).
Proof. exact laplace2_spec. Qed.
Print Assumptions C130_laplace.

Theorem C130_laplace_case : forall p, exact2 p -> d_val p = la_p ->
  same2 (laplace_f2 p) (fun t x y => - 8 * PI ^ 2 * la_p t x y).
Proof. exact laplace_case. Qed.
Print Assumptions C130_laplace_case.

Theorem C130_stokes2 : forall u v p, exact2 u -> exact2 v -> first2 p ->
  forall px py lu lv : field2,
  is_partial2 BX (d_val p) px -> is_partial2 BY (d_val p) py ->
  is_laplacian2 (d_val u) lu -> is_laplacian2 (d_val v) lv ->
  same2 (stokes_x2 u p) (fun t x y => px t x y - lu t x y) /\
  same2 (stokes_y2 v p) (fun t x y => py t x y - lv t x y).
Proof. exact stokes2_spec. Qed.
Print Assumptions C130_stokes2.

Theorem C130_stokes2_case : forall u v p, exact2 u -> exact2 v -> first2 p ->
  d_val u = st2_u -> d_val v = st2_v -> d_val p = st2_p ->
  same2 (stokes_x2 u p) (fun t x y =>
    (8 * PI ^ 2 + 2 * PI) * st2_u t x y) /\
  same2 (stokes_y2 v p) (fun t x y =>
    (8 * PI ^ 2 - 2 * PI) * st2_v t x y) /\
  solenoidal2 st2_u st2_v.
Proof. exact stokes2_case. Qed.
Print Assumptions C130_stokes2_case.

Example C130_laplace_exists : exact2 (g_u (ex_tgv 1)) /\
  first2 (g_p (ex_tgv 1)).
Proof.
  destruct (ex_tgv_exact 1) as [A [_ [B _]]]. exact (conj A B).
Qed.

(** C131: the derivatives written by hand. *)
Theorem C131_dissipation : forall nu,
  exact_flow3 (diss nu) /\ exact_flow3 (modi nu).
Proof. exact (fun nu => conj (diss_exact nu) (modi_exact nu)). Qed.
Print Assumptions C131_dissipation.

Theorem C131_conservation :
  first3 cons_U /\ first3 cons_V /\ first3 cons_W.
Proof. exact cons_first. Qed.
Print Assumptions C131_conservation.

Theorem C131_taylor_green : forall L V0, L <> 0 ->
  first3 (tgv1_U L V0) /\ first3 (tgv1_V L V0) /\ first3 tgv1_W.
Proof. exact tgv1_right. Qed.
Print Assumptions C131_taylor_green.

(** C131: the velocities have no divergence. *)
Theorem C131_solenoidal :
  solenoidal3 (c_val diss_U) (c_val diss_V) (c_val diss_W) /\
  solenoidal3 (c_val modi_U) (c_val modi_V) (c_val modi_W) /\
  solenoidal3 cons_u cons_v cons_w /\
  (forall L V0, L <> 0 ->
   solenoidal3 (c_val (tgv1_U L V0)) (c_val (tgv1_V L V0)) (c_val tgv1_W)) /\
  solenoidal3 as2_u as2_v as2_w /\ solenoidal3 as2_bx as2_by as2_bz /\
  solenoidal3 st_u st_v st_w.
Proof.
  exact (conj diss_solenoidal (conj modi_solenoidal (conj cons_solenoidal
    (conj tgv1_solenoidal (conj (proj1 as2_solenoidal)
    (conj (proj2 as2_solenoidal) st_solenoidal)))))).
Qed.
Print Assumptions C131_solenoidal.

(** Not all vector fields have no divergence. *)
Example C131_case :
  ~ solenoidal3 (fun _ x _ _ => x) (fun _ _ _ _ => 0) (fun _ _ _ _ => 0).
Proof.
  intros [ux [vy [wz [A [B [C D]]]]]].
  assert (A' : is_partial3 AX (fun _ x _ _ => x) (fun _ _ _ _ => 1))
    by (intros t x y z; apply derivable_pt_lim_id).
  assert (Z : forall a, is_partial3 a (fun _ _ _ _ => 0) (fun _ _ _ _ => 0))
    by exact partial_zero.
  specialize (D 0 0 0 0).
  rewrite (partial_unique _ _ _ _ A A' 0 0 0 0),
    (partial_unique _ _ _ _ B (Z AY) 0 0 0 0),
    (partial_unique _ _ _ _ C (Z AZ) 0 0 0 0) in D. lra.
Qed.

(** C132: the vorticity of the dipole is right up to its sign, which is
    wrong when [we1 < 0]. *)
Theorem C132_dipole_partial : forall x1 y1 x2 y2 r0 a b s d,
  make_dipole x1 y1 x2 y2 r0 a b s = Some d -> r0 <> 0 ->
  (0 <= a -> is_rot2 (dp_u d) (dp_v d) (dp_omega d)) /\
  (a <= 0 -> is_rot2 (dp_u d) (dp_v d) (fun t x y => - dp_omega d t x y)).
Proof. exact dipole_omega. Qed.
Print Assumptions C132_dipole_partial.

Theorem C132_dipole_derivatives : forall d, dp_r0 d <> 0 ->
  solenoidal2 (dp_u d) (dp_v d) /\
  exists uy vx, is_partial2 BY (dp_u d) uy /\ is_partial2 BX (dp_v d) vx.
Proof. exact dipole_derivatives. Qed.
Print Assumptions C132_dipole_derivatives.

Theorem C132_dipole_refuted : exists d,
  make_dipole 0 (/ 10) 0 (- / 10) (/ 10) (-320) 320 1 = Some d /\
  ~ is_rot2 (dp_u d) (dp_v d) (dp_omega d).
Proof. exact dipole_turned. Qed.
Print Assumptions C132_dipole_refuted.

(** C132: the outlines that are accepted, and one outside the square. *)
Theorem C132_outline_partial : forall ps, outline_ok ps = true <->
  (Forall (fun q => fst q = -1 /\ -1 <= snd q) ps \/
   Forall (fun q => fst q = 1 /\ -1 <= snd q) ps \/
   Forall (fun q => snd q = -1 /\ -1 <= fst q) ps \/
   Forall (fun q => snd q = 1 /\ -1 <= fst q) ps).
Proof. exact outline_spec. Qed.
Print Assumptions C132_outline_partial.

Theorem C132_outline_refuted :
  outline_ok [(-1, 0); (-1, 5)] = true.
Proof. exact outline_outside. Qed.
Print Assumptions C132_outline_refuted.

(** C132: the velocity on the boundary of the channel. *)
Theorem C132_channel_partial : forall h r li lo c inlet,
  make_channel h r li lo = Some c -> forall t y,
  fc_u c inlet t (- h / 2 - li) y = inlet /\
  (forall x, - (r + li) <= x -> fc_u c inlet t x y = 0) /\
  (forall x, x < - (r + li) -> fc_u c inlet t x y = inlet).
Proof. exact channel_velocity. Qed.
Print Assumptions C132_channel_partial.

Theorem C132_wall_refuted : forall h r li lo c inlet,
  make_channel h r li lo = Some c -> 0 < li -> 0 < lo -> inlet <> 0 ->
  exists x, - h / 2 - li < x < h / 2 + lo /\
  forall t, fc_u c inlet t x (h / 2) <> 0.
Proof. exact channel_wall. Qed.
Print Assumptions C132_wall_refuted.

(** C132: the lengths of the channel are not checked. *)
Theorem C132_lengths_refuted : forall h r li lo c,
  make_channel h r li lo = Some c <->
  (0 < h /\ 0 < r /\ r < h / 2 /\ c = mkchannel h r li lo).
Proof. exact channel_spec. Qed.
Print Assumptions C132_lengths_refuted.

Example C132_case : make_channel 3 1 (-7) 0 = Some (mkchannel 3 1 (-7) 0) /\
  make_channel 3 1 2 5 = Some (mkchannel 3 1 2 5).
Proof. split; apply channel_spec; repeat split; lra. Qed.

(** C133: the last condition that holds decides; without one the default or
    the fill value. *)
Theorem C133_last : forall A (fill : A) c1 c2 f1 v f2,
  length c1 = length f1 -> Forall (fun c => c = false) c2 ->
  length c2 = length f2 \/ S (length c2) = length f2 ->
  genpiecewise fill (c1 ++ true :: c2) (f1 ++ v :: f2) = Some v.
Proof. exact piece_last. Qed.
Print Assumptions C133_last.

Theorem C133_default : forall A (fill : A) cs fs d,
  length cs = length fs -> Forall (fun c => c = false) cs ->
  genpiecewise fill cs (fs ++ [d]) = Some d /\
  (cs <> [] -> genpiecewise fill cs fs = Some fill).
Proof. exact piece_default. Qed.
Print Assumptions C133_default.

Theorem C133_error : forall A (fill : A) cs fs,
  genpiecewise fill cs fs = None <->
  (cs = [] /\ fs = []) \/
  (length fs <> length cs /\ length fs <> S (length cs)).
Proof. exact piece_none. Qed.
Print Assumptions C133_error.

Example C133_case :
  genpiecewise 0%nat [true; true; false] [5; 6; 7]%nat = Some 6%nat /\
  genpiecewise 0%nat [false; false] [5; 6; 7]%nat = Some 7%nat.
Proof. split; reflexivity. Qed.

(** C133: the shear layer is continuous, periodic and without
    divergence. *)
Theorem C133_shear_continuous : forall delta t x,
  continuity (fun y => shear_u delta t x y).
Proof. exact shear_continuous. Qed.
Print Assumptions C133_shear_continuous.

Theorem C133_shear_periodic : forall delta eps t x y,
  shear_u delta t (x + 2 * PI) y = shear_u delta t x y /\
  shear_u delta t x 0 = shear_u delta t x (2 * PI) /\
  shear_v eps t (x + 2 * PI) y = shear_v eps t x y.
Proof. exact shear_periodic. Qed.
Print Assumptions C133_shear_periodic.

Theorem C133_shear_solenoidal : forall delta eps,
  solenoidal2 (shear_u delta) (shear_v eps).
Proof. exact shear_solenoidal. Qed.
Print Assumptions C133_shear_solenoidal.

(** C133: below and above the middle. *)
Theorem C133_shear_value : forall delta t x y,
  (y <= PI -> shear_u delta t x y = tanh ((y - PI / 2) / delta)) /\
  (PI < y -> shear_u delta t x y = tanh ((3 * PI / 2 - y) / delta)).
Proof. exact shear_sides. Qed.
Print Assumptions C133_shear_value.

Example C133_shear_case : shear_u 1 0 0 0 < shear_u 1 0 0 PI.
Proof. exact shear_not_constant. Qed.
