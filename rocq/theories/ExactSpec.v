(** The equations the exact solutions should satisfy, in terms of partial
    derivatives, and when the derivatives of a solution are right. *)
From Coq Require Import Reals.
From Verif Require Import FieldModel FieldSpec ExactModel.
Open Scope R_scope.

(** The derivatives of a component are its derivatives. *)
Definition exact3 (c : comp3) : Prop :=
  is_partial3 AT (c_val c) (c_t c) /\ is_partial3 AX (c_val c) (c_x c) /\
  is_partial3 AY (c_val c) (c_y c) /\ is_partial3 AZ (c_val c) (c_z c) /\
  is_partial3 AX (c_x c) (c_xx c) /\ is_partial3 AY (c_y c) (c_yy c) /\
  is_partial3 AZ (c_z c) (c_zz c).

(** Mixed second derivatives exist and do not depend on the order. *)
Definition smooth3 (c : comp3) : Prop :=
  exists xy xz yz : field3,
  is_partial3 AY (c_x c) xy /\ is_partial3 AX (c_y c) xy /\
  is_partial3 AZ (c_x c) xz /\ is_partial3 AX (c_z c) xz /\
  is_partial3 AZ (c_y c) yz /\ is_partial3 AY (c_z c) yz.

(** Its gradient is. *)
Definition first3 (c : comp3) : Prop :=
  is_partial3 AX (c_val c) (c_x c) /\ is_partial3 AY (c_val c) (c_y c) /\
  is_partial3 AZ (c_val c) (c_z c).

Definition exact_flow3 (e : flow3) : Prop :=
  exact3 (f_u e) /\ exact3 (f_v e) /\ exact3 (f_w e) /\ first3 (f_p e).

(** A field without divergence. *)
Definition solenoidal3 (u v w : field3) : Prop :=
  exists ux vy wz : field3,
  is_partial3 AX u ux /\ is_partial3 AY v vy /\ is_partial3 AZ w wz /\
  forall t x y z, ux t x y z + vy t x y z + wz t x y z = 0.

(** [f] is the rate of change of [q] along the flow [(u, v, w)], minus its
    diffusion, plus [g]. *)
Definition transport3 (nu : R) (u v w q g f : field3) : Prop :=
  forall qt qx qy qz qxx qyy qzz : field3,
  is_partial3 AT q qt -> is_partial3 AX q qx -> is_partial3 AY q qy ->
  is_partial3 AZ q qz -> is_partial3 AX qx qxx -> is_partial3 AY qy qyy ->
  is_partial3 AZ qz qzz ->
  same3 f (fun t x y z =>
    qt t x y z
    + (u t x y z * qx t x y z + v t x y z * qy t x y z
       + w t x y z * qz t x y z)
    + g t x y z - nu * (qxx t x y z + qyy t x y z + qzz t x y z)).

(** The incompressible Navier-Stokes equations in convective form. *)
Definition momentum3 (nu : R) (u v w p fx fy fz : field3) : Prop :=
  forall px py pz : field3,
  is_partial3 AX p px -> is_partial3 AY p py -> is_partial3 AZ p pz ->
  transport3 nu u v w u px fx /\ transport3 nu u v w v py fy /\
  transport3 nu u v w w pz fz.

(** [(a, b, c)] is the curl of [(u, v, w)]. *)
Definition is_curl3 (u v w a b c : field3) : Prop :=
  forall uy uz vx vz wx wy : field3,
  is_partial3 AY u uy -> is_partial3 AZ u uz -> is_partial3 AX v vx ->
  is_partial3 AZ v vz -> is_partial3 AX w wx -> is_partial3 AY w wy ->
  same3 a (fun t x y z => wy t x y z - vz t x y z) /\
  same3 b (fun t x y z => uz t x y z - wx t x y z) /\
  same3 c (fun t x y z => vx t x y z - uy t x y z).

(** [d] is the divergence of [(u, v, w)]. *)
Definition is_div3 (u v w d : field3) : Prop :=
  forall ux vy wz : field3,
  is_partial3 AX u ux -> is_partial3 AY v vy -> is_partial3 AZ w wz ->
  same3 d (fun t x y z => ux t x y z + vy t x y z + wz t x y z).

(** [d] is the Laplacian of [q]. *)
Definition is_laplacian3 (q d : field3) : Prop :=
  forall qx qy qz qxx qyy qzz : field3,
  is_partial3 AX q qx -> is_partial3 AY q qy -> is_partial3 AZ q qz ->
  is_partial3 AX qx qxx -> is_partial3 AY qy qyy -> is_partial3 AZ qz qzz ->
  same3 d (fun t x y z => qxx t x y z + qyy t x y z + qzz t x y z).

(** The momentum equation in the header of incompressibleMHD/base.py,
    [Pu/Pt + w x u + (1/Re) curl(w) - c (j x B) + grad(P) = f], with the
    differences the code uses as derivatives: its left hand side. *)
Definition documented_x (m : mhd) : field3 := fun t x y z =>
  let e := m_flow m in
  diff3 AT (c_val (f_u e)) t x y z
  + (omega_y3 e t x y z * c_val (f_w e) t x y z
     - omega_z3 e t x y z * c_val (f_v e) t x y z)
  + f_nu e * curl_omega_x e t x y z
  - m_c m * (j_y m t x y z * c_val (m_bz m) t x y z
             - j_z m t x y z * c_val (m_by m) t x y z)
  + tp_x3 e t x y z.

Definition documented_y (m : mhd) : field3 := fun t x y z =>
  let e := m_flow m in
  diff3 AT (c_val (f_v e)) t x y z
  + (omega_z3 e t x y z * c_val (f_u e) t x y z
     - omega_x3 e t x y z * c_val (f_w e) t x y z)
  + f_nu e * curl_omega_y e t x y z
  - m_c m * (j_z m t x y z * c_val (m_bx m) t x y z
             - j_x m t x y z * c_val (m_bz m) t x y z)
  + tp_y3 e t x y z.
Definition documented_z (m : mhd) : field3 := fun t x y z =>
  let e := m_flow m in
  diff3 AT (c_val (f_w e)) t x y z
  + (omega_x3 e t x y z * c_val (f_v e) t x y z
     - omega_y3 e t x y z * c_val (f_u e) t x y z)
  + f_nu e * curl_omega_z e t x y z
  - m_c m * (j_x m t x y z * c_val (m_by m) t x y z
             - j_y m t x y z * c_val (m_bx m) t x y z)
  + tp_z3 e t x y z.

(** The Reynolds numbers that are allowed. *)
Definition valid_reynolds (r : reynolds) : Prop :=
  r = Infty \/ exists a, r = Number a /\ 0 < a.

(** All derivatives are the numerical ones. *)
Definition numerical3 (c : comp3) : Prop := c = component3 (c_val c) none3.
Definition numerical_flow3 (e : flow3) : Prop :=
  numerical3 (f_u e) /\ numerical3 (f_v e) /\ numerical3 (f_w e).

(** *** Two dimensions *)

Definition exact2 (c : comp2) : Prop :=
  is_partial2 BT (d_val c) (d_t c) /\ is_partial2 BX (d_val c) (d_x c) /\
  is_partial2 BY (d_val c) (d_y c) /\ is_partial2 BX (d_x c) (d_xx c) /\
  is_partial2 BY (d_y c) (d_yy c).

Definition first2 (c : comp2) : Prop :=
  is_partial2 BX (d_val c) (d_x c) /\ is_partial2 BY (d_val c) (d_y c).

Definition solenoidal2 (u v : field2) : Prop :=
  exists ux vy : field2,
  is_partial2 BX u ux /\ is_partial2 BY v vy /\
  forall t x y, ux t x y + vy t x y = 0.

Definition smooth2 (c : comp2) : Prop :=
  exists xy : field2,
  is_partial2 BY (d_x c) xy /\ is_partial2 BX (d_y c) xy.

(** The vorticity and the total pressure are the usual ones, and their first
    derivatives are right. *)
Definition exact_flow2 (e : flow2) : Prop :=
  exact2 (g_u e) /\ exact2 (g_v e) /\ first2 (g_p e) /\
  same2 (d_val (g_omega e))
    (fun t x y => d_x (g_v e) t x y - d_y (g_u e) t x y) /\
  is_partial2 BX (d_val (g_omega e)) (d_x (g_omega e)) /\
  is_partial2 BY (d_val (g_omega e)) (d_y (g_omega e)) /\
  same2 (d_val (g_tp e)) (fun t x y => d_val (g_p e) t x y
    + (d_val (g_u e) t x y * d_val (g_u e) t x y
       + d_val (g_v e) t x y * d_val (g_v e) t x y) / 2) /\
  is_partial2 BX (d_val (g_tp e)) (d_x (g_tp e)) /\
  is_partial2 BY (d_val (g_tp e)) (d_y (g_tp e)).

Definition transport2 (nu : R) (u v q g f : field2) : Prop :=
  forall qt qx qy qxx qyy : field2,
  is_partial2 BT q qt -> is_partial2 BX q qx -> is_partial2 BY q qy ->
  is_partial2 BX qx qxx -> is_partial2 BY qy qyy ->
  same2 f (fun t x y =>
    qt t x y + (u t x y * qx t x y + v t x y * qy t x y)
    + g t x y - nu * (qxx t x y + qyy t x y)).

Definition momentum2 (nu : R) (u v p fx fy : field2) : Prop :=
  forall px py : field2, is_partial2 BX p px -> is_partial2 BY p py ->
  transport2 nu u v u px fx /\ transport2 nu u v v py fy.

Definition is_rot2 (u v o : field2) : Prop :=
  forall uy vx : field2, is_partial2 BY u uy -> is_partial2 BX v vx ->
  same2 o (fun t x y => vx t x y - uy t x y).
Definition is_div2 (u v d : field2) : Prop :=
  forall ux vy : field2, is_partial2 BX u ux -> is_partial2 BY v vy ->
  same2 d (fun t x y => ux t x y + vy t x y).

Definition is_laplacian2 (q d : field2) : Prop :=
  forall qx qy qxx qyy : field2,
  is_partial2 BX q qx -> is_partial2 BY q qy ->
  is_partial2 BX qx qxx -> is_partial2 BY qy qyy ->
  same2 d (fun t x y => qxx t x y + qyy t x y).

Definition zero3 : field3 := fun _ _ _ _ => 0.
Definition zero2 : field2 := fun _ _ _ => 0.

(** *** Vectors by axis, and the induction equation in the header of
    incompressibleMHD/base.py: [PB/Pt + curl(E)], [E = (1/Rm) j - u x B],
    [j = curl(B)], with differences as derivatives. *)
Definition turn (a : axis) : axis :=
  match a with AX => AY | AY => AZ | AZ => AX | AT => AT end.
Definition curl_by (D : axis -> field3 -> field3) (f : axis -> field3)
  (a : axis) : field3 := fun t x y z =>
  D (turn a) (f (turn (turn a))) t x y z
  - D (turn (turn a)) (f (turn a)) t x y z.
Definition cross_of (u b : axis -> field3) (a : axis) : field3 :=
  fun t x y z =>
  u (turn a) t x y z * b (turn (turn a)) t x y z
  - u (turn (turn a)) t x y z * b (turn a) t x y z.
Definition by_axis (f g h : field3) (a : axis) : field3 :=
  match a with AY => g | AZ => h | _ => f end.
Definition velocity_of (m : mhd) : axis -> field3 :=
  by_axis (c_val (f_u (m_flow m))) (c_val (f_v (m_flow m)))
          (c_val (f_w (m_flow m))).
Definition magnetic_of (m : mhd) : axis -> field3 :=
  by_axis (c_val (m_bx m)) (c_val (m_by m)) (c_val (m_bz m)).
Definition ohm_of (m : mhd) (a : axis) : field3 := fun t x y z =>
  m_rm m * curl_by diff3 (magnetic_of m) a t x y z
  - cross_of (velocity_of m) (magnetic_of m) a t x y z.
(** [x] is one over the number. *)
Definition reciprocal (r : reynolds) (x : R) : Prop :=
  match r with Number a => x * a = 1 | Infty => x = 0 end.
