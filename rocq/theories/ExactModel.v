(** Exact solutions: the base classes of objects/CSCG/_3d/exactSolutions
    (incompressible Navier-Stokes, incompressible MHD, Stokes, Poisson, wave
    and time independent Schroedinger equations), of
    objects/CSCG/_2d/exactSolutions (incompressible Navier-Stokes, Euler,
    scalar Laplace) and of objects/miUsGrid/triangular/exactSolution (the
    dimensionless Navier-Stokes equations and Stokes, whose formulas are the
    same). Numbers are reals, arrays are evaluated pointwise. A subclass gives
    the methods it overrides; a derivative it does not override is the
    numerical one of FieldModel. Not modelled: the field objects that wrap the
    methods, caching, [valid_time], and [___PreFrozenChecker___] (whose checks
    of derivatives are [check_partial] of FieldModel). *)
From Coq Require Import Reals Bool.
From Verif Require Import FieldModel.
Open Scope R_scope.

(** *** Components in three dimensions *)

(** A component (u, v, w, p, Bx, ...) with its first derivatives and its pure
    second derivatives. *)
Record comp3 := mkcomp3 { c_val : field3;
  c_t : field3; c_x : field3; c_y : field3; c_z : field3;
  c_xx : field3; c_yy : field3; c_zz : field3 }.

(** The methods a subclass overrides. *)
Record own3 := mkown3 { o_t : option field3;
  o_x : option field3; o_y : option field3; o_z : option field3;
  o_xx : option field3; o_yy : option field3; o_zz : option field3 }.

Definition none3 : own3 := mkown3 None None None None None None None.

Definition override {A} (o : option A) (d : A) : A :=
  match o with Some f => f | None => d end.

(** incompressibleNavierStokes/base.py lines 73-199: [u_t], [u_x], ...,
    [u_xx], ...: the numerical derivative of [self.u], the second derivatives
    that of [self.u_x], [self.u_y], [self.u_z], overridden or not. *)
Definition component3 (f : field3) (o : own3) : comp3 :=
  let fx := override (o_x o) (scipy_partial3 f AX) in
  let fy := override (o_y o) (scipy_partial3 f AY) in
  let fz := override (o_z o) (scipy_partial3 f AZ) in
  mkcomp3 f (override (o_t o) (scipy_partial3 f AT)) fx fy fz
    (override (o_xx o) (scipy_partial3 fx AX))
    (override (o_yy o) (scipy_partial3 fy AY))
    (override (o_zz o) (scipy_partial3 fz AZ)).

(** *** Incompressible Navier-Stokes in three dimensions *)

Record flow3 := mkflow3 { f_nu : R;
  f_u : comp3; f_v : comp3; f_w : comp3; f_p : comp3 }.

(** base.py lines 230-232. *)
Definition div_velocity3 (e : flow3) : field3 := fun t x y z =>
  c_x (f_u e) t x y z + c_y (f_v e) t x y z + c_z (f_w e) t x y z.

(** base.py lines 272-279. *)
Definition omega_x3 (e : flow3) : field3 := fun t x y z =>
  c_y (f_w e) t x y z - c_z (f_v e) t x y z.
Definition omega_y3 (e : flow3) : field3 := fun t x y z =>
  c_z (f_u e) t x y z - c_x (f_w e) t x y z.
Definition omega_z3 (e : flow3) : field3 := fun t x y z =>
  c_x (f_v e) t x y z - c_y (f_u e) t x y z.

(** base.py lines 299-306; they are called the curl of the vorticity (lines
    281-297). *)
Definition m_laplace3 (c : comp3) : field3 := fun t x y z =>
  - (c_xx c t x y z + c_yy c t x y z + c_zz c t x y z).

(** base.py lines 420-440. *)
Definition kinetic3 (e : flow3) : field3 := fun t x y z =>
  / 2 * (c_val (f_u e) t x y z ^ 2 + c_val (f_v e) t x y z ^ 2
         + c_val (f_w e) t x y z ^ 2).
Definition ke_x3 (e : flow3) : field3 := fun t x y z =>
  c_val (f_u e) t x y z * c_x (f_u e) t x y z
  + c_val (f_v e) t x y z * c_x (f_v e) t x y z
  + c_val (f_w e) t x y z * c_x (f_w e) t x y z.
Definition ke_y3 (e : flow3) : field3 := fun t x y z =>
  c_val (f_u e) t x y z * c_y (f_u e) t x y z
  + c_val (f_v e) t x y z * c_y (f_v e) t x y z
  + c_val (f_w e) t x y z * c_y (f_w e) t x y z.
Definition ke_z3 (e : flow3) : field3 := fun t x y z =>
  c_val (f_u e) t x y z * c_z (f_u e) t x y z
  + c_val (f_v e) t x y z * c_z (f_v e) t x y z
  + c_val (f_w e) t x y z * c_z (f_w e) t x y z.

(** base.py lines 381-394. *)
Definition total_pressure3 (e : flow3) : field3 := fun t x y z =>
  c_val (f_p e) t x y z + kinetic3 e t x y z.
Definition tp_x3 (e : flow3) : field3 := fun t x y z =>
  c_x (f_p e) t x y z + ke_x3 e t x y z.
Definition tp_y3 (e : flow3) : field3 := fun t x y z =>
  c_y (f_p e) t x y z + ke_y3 e t x y z.
Definition tp_z3 (e : flow3) : field3 := fun t x y z =>
  c_z (f_p e) t x y z + ke_z3 e t x y z.

(** base.py lines 323-339. *)
Definition force_x3 (e : flow3) : field3 := fun t x y z =>
  c_t (f_u e) t x y z + omega_y3 e t x y z * c_val (f_w e) t x y z
  - omega_z3 e t x y z * c_val (f_v e) t x y z + tp_x3 e t x y z
  - f_nu e * (c_xx (f_u e) t x y z + c_yy (f_u e) t x y z
              + c_zz (f_u e) t x y z).
Definition force_y3 (e : flow3) : field3 := fun t x y z =>
  c_t (f_v e) t x y z + omega_z3 e t x y z * c_val (f_u e) t x y z
  - omega_x3 e t x y z * c_val (f_w e) t x y z + tp_y3 e t x y z
  - f_nu e * (c_xx (f_v e) t x y z + c_yy (f_v e) t x y z
              + c_zz (f_v e) t x y z).
Definition force_z3 (e : flow3) : field3 := fun t x y z =>
  c_t (f_w e) t x y z + omega_x3 e t x y z * c_val (f_v e) t x y z
  - omega_y3 e t x y z * c_val (f_u e) t x y z + tp_z3 e t x y z
  - f_nu e * (c_xx (f_w e) t x y z + c_yy (f_w e) t x y z
              + c_zz (f_w e) t x y z).

(** base.py lines 453-456 and 470-473. *)
Definition helicity3 (e : flow3) : field3 := fun t x y z =>
  c_val (f_u e) t x y z * omega_x3 e t x y z
  + c_val (f_v e) t x y z * omega_y3 e t x y z
  + c_val (f_w e) t x y z * omega_z3 e t x y z.
Definition enstrophy3 (e : flow3) : field3 := fun t x y z =>
  / 2 * (omega_x3 e t x y z ^ 2 + omega_y3 e t x y z ^ 2
         + omega_z3 e t x y z ^ 2).

(** Stokes/base.py lines 284-291. *)
Definition stokes_x3 (e : flow3) : field3 := fun t x y z =>
  m_laplace3 (f_u e) t x y z + c_x (f_p e) t x y z.
Definition stokes_y3 (e : flow3) : field3 := fun t x y z =>
  m_laplace3 (f_v e) t x y z + c_y (f_p e) t x y z.
Definition stokes_z3 (e : flow3) : field3 := fun t x y z =>
  m_laplace3 (f_w e) t x y z + c_z (f_p e) t x y z.

(** *** Incompressible MHD *)

(** incompressibleMHD/base.py lines 54-67: a positive number or 'infty'. *)
Inductive reynolds := Number (r : R) | Infty.

Definition is_positive (r : R) : bool := if Rlt_dec 0 r then true else false.

Definition one_over (r : reynolds) : option R :=
  match r with
  | Number a => if is_positive a then Some (1 / a) else None
  | Infty => Some 0
  end.

(** [m_flow] has 1/Rf as its viscosity. *)
Record mhd := mkmhd { m_flow : flow3; m_rm : R; m_c : R;
  m_bx : comp3; m_by : comp3; m_bz : comp3 }.

(** The constructor, base.py lines 29-67. *)
Definition make_mhd (rf rm : reynolds) (c : R) (u v w p bx by_ bz : comp3)
  : option mhd :=
  match one_over rf, one_over rm with
  | Some f, Some m => Some (mkmhd (mkflow3 f u v w p) m c bx by_ bz)
  | _, _ => None
  end.

(** base.py lines 464-466. *)
Definition div_b (m : mhd) : field3 := fun t x y z =>
  c_x (m_bx m) t x y z + c_y (m_by m) t x y z + c_z (m_bz m) t x y z.

(** base.py lines 479-487. *)
Definition j_x (m : mhd) : field3 := fun t x y z =>
  c_y (m_bz m) t x y z - c_z (m_by m) t x y z.
Definition j_y (m : mhd) : field3 := fun t x y z =>
  c_z (m_bx m) t x y z - c_x (m_bz m) t x y z.
Definition j_z (m : mhd) : field3 := fun t x y z =>
  c_x (m_by m) t x y z - c_y (m_bx m) t x y z.

(** base.py lines 503-513. *)
Definition uxb_x (m : mhd) : field3 := fun t x y z =>
  c_val (f_v (m_flow m)) t x y z * c_val (m_bz m) t x y z
  - c_val (f_w (m_flow m)) t x y z * c_val (m_by m) t x y z.
Definition uxb_y (m : mhd) : field3 := fun t x y z =>
  c_val (f_w (m_flow m)) t x y z * c_val (m_bx m) t x y z
  - c_val (f_u (m_flow m)) t x y z * c_val (m_bz m) t x y z.
Definition uxb_z (m : mhd) : field3 := fun t x y z =>
  c_val (f_u (m_flow m)) t x y z * c_val (m_by m) t x y z
  - c_val (f_v (m_flow m)) t x y z * c_val (m_bx m) t x y z.

(** base.py lines 515-525. *)
Definition e_x (m : mhd) : field3 := fun t x y z =>
  m_rm m * j_x m t x y z - uxb_x m t x y z.
Definition e_y (m : mhd) : field3 := fun t x y z =>
  m_rm m * j_y m t x y z - uxb_y m t x y z.
Definition e_z (m : mhd) : field3 := fun t x y z =>
  m_rm m * j_z m t x y z - uxb_z m t x y z.

(** base.py lines 353-394 and 633-640: no subclass overrides the derivatives
    of the electric field. *)
Definition curl_e_x (m : mhd) : field3 := fun t x y z =>
  scipy_partial3 (e_z m) AY t x y z - scipy_partial3 (e_y m) AZ t x y z.
Definition curl_e_y (m : mhd) : field3 := fun t x y z =>
  scipy_partial3 (e_x m) AZ t x y z - scipy_partial3 (e_z m) AX t x y z.
Definition curl_e_z (m : mhd) : field3 := fun t x y z =>
  scipy_partial3 (e_y m) AX t x y z - scipy_partial3 (e_x m) AY t x y z.

(** base.py lines 396-436 and 614-621. *)
Definition curl_omega_x (e : flow3) : field3 := fun t x y z =>
  scipy_partial3 (omega_z3 e) AY t x y z
  - scipy_partial3 (omega_y3 e) AZ t x y z.
Definition curl_omega_y (e : flow3) : field3 := fun t x y z =>
  scipy_partial3 (omega_x3 e) AZ t x y z
  - scipy_partial3 (omega_z3 e) AX t x y z.
Definition curl_omega_z (e : flow3) : field3 := fun t x y z =>
  scipy_partial3 (omega_y3 e) AX t x y z
  - scipy_partial3 (omega_x3 e) AY t x y z.

(** base.py lines 698-700. *)
Definition div_omega (e : flow3) : field3 := fun t x y z =>
  scipy_partial3 (omega_x3 e) AX t x y z
  + scipy_partial3 (omega_y3 e) AY t x y z
  + scipy_partial3 (omega_z3 e) AZ t x y z.

(** base.py lines 678-685. *)
Definition laplace3 (c : comp3) : field3 := fun t x y z =>
  c_xx c t x y z + c_yy c t x y z + c_zz c t x y z.

(** base.py lines 702-721. *)
Definition mhd_x (m : mhd) : field3 := fun t x y z =>
  let e := m_flow m in
  c_t (f_u e) t x y z
  + omega_y3 e t x y z * c_val (f_w e) t x y z
  - omega_z3 e t x y z * c_val (f_v e) t x y z
  + tp_x3 e t x y z
  - f_nu e * laplace3 (f_u e) t x y z
  - m_c m * (j_y m t x y z * c_val (m_bz m) t x y z
             - j_z m t x y z * c_val (m_by m) t x y z).
Definition mhd_y (m : mhd) : field3 := fun t x y z =>
  let e := m_flow m in
  c_t (f_v e) t x y z
  + omega_z3 e t x y z * c_val (f_u e) t x y z
  - omega_x3 e t x y z * c_val (f_w e) t x y z
  + tp_y3 e t x y z
  - f_nu e * laplace3 (f_v e) t x y z
  - m_c m * (j_z m t x y z * c_val (m_bx m) t x y z
             - j_x m t x y z * c_val (m_bz m) t x y z).
Definition mhd_z (m : mhd) : field3 := fun t x y z =>
  let e := m_flow m in
  c_t (f_w e) t x y z
  + omega_x3 e t x y z * c_val (f_v e) t x y z
  - omega_y3 e t x y z * c_val (f_u e) t x y z
  + tp_z3 e t x y z
  - f_nu e * laplace3 (f_w e) t x y z
  - m_c m * (j_x m t x y z * c_val (m_by m) t x y z
             - j_y m t x y z * c_val (m_bx m) t x y z).

(** base.py lines 733-741. *)
Definition r_x (m : mhd) : field3 := fun t x y z =>
  c_t (m_bx m) t x y z + curl_e_x m t x y z.
Definition r_y (m : mhd) : field3 := fun t x y z =>
  c_t (m_by m) t x y z + curl_e_y m t x y z.
Definition r_z (m : mhd) : field3 := fun t x y z =>
  c_t (m_bz m) t x y z + curl_e_z m t x y z.

(** *** Poisson, wave and Schroedinger equations *)

(** Poisson/base.py lines 84-85; [u], [v], [w] are the first and [u_x],
    [v_y], [w_z] the second derivatives of [phi] (lines 51-82). *)
Definition poisson_f (phi : comp3) : field3 := fun t x y z =>
  - c_xx phi t x y z - c_yy phi t x y z - c_zz phi t x y z.

(** wave_equations/base.py lines 45-91: [psi] is the time derivative of
    [phi]; [psi_t] is that of [psi]. *)
Definition psi_t (phi : comp3) (own : option field3) : field3 :=
  override own (scipy_partial3 (c_t phi) AT).
Definition wave_f (phi : comp3) (own : option field3) : field3 :=
  fun t x y z =>
  psi_t phi own t x y z - c_xx phi t x y z - c_yy phi t x y z
  - c_zz phi t x y z.

(** timeIndependentSchrodingerEquation/base.py lines 31-40 and 149-154. *)
Definition alpha (hbar m : R) : R := hbar ^ 2 / (2 * m).
Definition schroedinger_f (hbar m E : R) (V : field3) (psi : comp3)
  : field3 := fun t x y z =>
  let P := c_val psi t x y z in
  let EP := E * P in
  let VP := V t x y z * P in
  (VP - EP) / alpha hbar m.

(** *** Two dimensions *)

Record comp2 := mkcomp2 { d_val : field2;
  d_t : field2; d_x : field2; d_y : field2;
  d_xx : field2; d_yy : field2 }.
Record own2 := mkown2 { p_t : option field2; p_x : option field2;
  p_y : option field2; p_xx : option field2; p_yy : option field2 }.
Definition none2 : own2 := mkown2 None None None None None.

(** _2d/exactSolutions/incompressibleNavierStokes/base.py lines 56-89,
    121-134, 176-190, 202-210. *)
Definition component2 (f : field2) (o : own2) : comp2 :=
  let fx := override (p_x o) (scipy_partial2 f BX) in
  let fy := override (p_y o) (scipy_partial2 f BY) in
  mkcomp2 f (override (p_t o) (scipy_partial2 f BT)) fx fy
    (override (p_xx o) (scipy_partial2 fx BX))
    (override (p_yy o) (scipy_partial2 fy BY)).

(** Velocity, pressure, vorticity and total pressure; the last two can be
    overridden too. *)
Record flow2 := mkflow2 { g_nu : R; g_u : comp2; g_v : comp2; g_p : comp2;
  g_omega : comp2; g_tp : comp2 }.

(** base.py lines 110-111, 212-213 and 199-200. *)
Definition omega2 (u v : comp2) : field2 := fun t x y =>
  d_x v t x y - d_y u t x y.
Definition kinetic2 (u v : comp2) : field2 := fun t x y =>
  / 2 * (d_val u t x y ^ 2 + d_val v t x y ^ 2).
Definition tp2 (u v p : comp2) : field2 := fun t x y =>
  d_val p t x y + kinetic2 u v t x y.

(** The object of a subclass that overrides [omega] or not, and no derivative
    of [omega] and of the total pressure. *)
Definition make_flow2 (nu : R) (u v p : comp2) (om : option field2)
  : flow2 :=
  mkflow2 nu u v p (component2 (override om (omega2 u v)) none2)
    (component2 (tp2 u v p) none2).

(** base.py lines 106-108. *)
Definition div_velocity2 (e : flow2) : field2 := fun t x y =>
  d_x (g_u e) t x y + d_y (g_v e) t x y.

(** base.py lines 136-137, 162-163. *)
Definition minus_omega_x2 (e : flow2) : field2 := fun t x y =>
  - d_x (g_omega e) t x y.
Definition palinstrophy2 (e : flow2) : field2 := fun t x y =>
  / 2 * (d_y (g_omega e) t x y ^ 2 + minus_omega_x2 e t x y ^ 2).

(** base.py lines 225-231; Euler/base.py lines 152-156 is the same without
    viscosity; triangular/exactSolution/dimensionlessIncompressibleNavierStokes
    lines 226-231 is the same with nu = 1/Re. *)
Definition force_x2 (e : flow2) : field2 := fun t x y =>
  d_t (g_u e) t x y - d_val (g_omega e) t x y * d_val (g_v e) t x y
  + g_nu e * d_y (g_omega e) t x y + d_x (g_tp e) t x y.
Definition force_y2 (e : flow2) : field2 := fun t x y =>
  d_t (g_v e) t x y + d_val (g_omega e) t x y * d_val (g_u e) t x y
  - g_nu e * d_x (g_omega e) t x y + d_y (g_tp e) t x y.
Definition euler_x2 (e : flow2) : field2 := fun t x y =>
  d_t (g_u e) t x y - d_val (g_omega e) t x y * d_val (g_v e) t x y
  + d_x (g_tp e) t x y.
Definition euler_y2 (e : flow2) : field2 := fun t x y =>
  d_t (g_v e) t x y + d_val (g_omega e) t x y * d_val (g_u e) t x y
  + d_y (g_tp e) t x y.

(** scalarLaplace/base.py lines 83-85. *)
Definition laplace_f2 (p : comp2) : field2 := fun t x y =>
  d_xx p t x y + d_yy p t x y.

(** triangular/exactSolution/Stokes/base.py: [fx] and [fy]. *)
Definition stokes_x2 (u p : comp2) : field2 := fun t x y =>
  - (d_xx u t x y + d_yy u t x y) + d_x p t x y.
Definition stokes_y2 (v p : comp2) : field2 := fun t x y =>
  - (d_xx v t x y + d_yy v t x y) + d_y p t x y.
