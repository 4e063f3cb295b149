(** Particular exact solutions of objects/CSCG/_3d/exactSolutions,
    objects/CSCG/_2d/exactSolutions and
    objects/miUsGrid/triangular/exactSolution. numpy's sin, cos, exp, tanh and
    pi are the real ones. Terms [0 * x] are kept as in the code. *)
From Coq Require Import Reals Bool List.
From Verif Require Import FieldModel ExactModel.
Import ListNotations.
Open Scope R_scope.

(** *** Navier-Stokes in three dimensions
    incompressibleNavierStokes/Sin_Cos.py *)

Definition nil3 : field3 := fun t x y z => 0 * x.
Definition nily3 : field3 := fun t x y z => 0 * y.

(** Lines 29-51 (SinCosRebholz_Conservation) and the same fields of the
    classes at lines 202, 256, 311 and 366. No pressure is given. *)
Definition cons_u : field3 := fun t x y z => cos (2 * PI * z).
Definition cons_v : field3 := fun t x y z => sin (2 * PI * z).
Definition cons_w : field3 := fun t x y z => sin (2 * PI * x).
Definition cons_U : comp3 := component3 cons_u (mkown3 None (Some nil3)
  (Some nil3) (Some (fun t x y z => -2 * PI * sin (2 * PI * z)))
  None None None).
Definition cons_V : comp3 := component3 cons_v (mkown3 None (Some nil3)
  (Some nil3) (Some (fun t x y z => 2 * PI * cos (2 * PI * z)))
  None None None).
Definition cons_W : comp3 := component3 cons_w (mkown3 None
  (Some (fun t x y z => 2 * PI * cos (2 * PI * x))) (Some nil3) (Some nil3)
  None None None).

(** Lines 80-134 (SinCosRebholz_Dissipation). *)
Definition diss_U : comp3 := component3
  (fun t x y z => (2 - t) * cos (2 * PI * z))
  (mkown3 (Some (fun t x y z => - cos (2 * PI * z)))
     (Some nil3) (Some nil3)
     (Some (fun t x y z => - 2 * PI * (2 - t) * sin (2 * PI * z)))
     (Some nil3) (Some nily3)
     (Some (fun t x y z => -4 * PI ^ 2 * (2 - t) * cos (2 * PI * z)))).
Definition diss_V : comp3 := component3
  (fun t x y z => (1 + t) * sin (2 * PI * z))
  (mkown3 (Some (fun t x y z => sin (2 * PI * z)))
     (Some nil3) (Some nil3)
     (Some (fun t x y z => 2 * PI * (1 + t) * cos (2 * PI * z)))
     (Some nil3) (Some nil3)
     (Some (fun t x y z => - 4 * PI ^ 2 * (1 + t) * sin (2 * PI * z)))).
Definition diss_W : comp3 := component3
  (fun t x y z => (1 - t) * sin (2 * PI * x))
  (mkown3 (Some (fun t x y z => - sin (2 * PI * x)))
     (Some (fun t x y z => 2 * PI * (1 - t) * cos (2 * PI * x)))
     (Some nil3) (Some nil3)
     (Some (fun t x y z => - 4 * PI ^ 2 * (1 - t) * sin (2 * PI * x)))
     (Some nil3) (Some nil3)).
Definition diss_p : field3 := fun t x y z => sin (2 * PI * (x + y + t)).
Definition diss_px : field3 := fun t x y z =>
  2 * PI * cos (2 * PI * (x + y + t)).
Definition diss_P : comp3 := component3 diss_p
  (mkown3 None (Some diss_px) (Some diss_px) (Some nil3) None None None).
Definition diss (nu : R) : flow3 := mkflow3 nu diss_U diss_V diss_W diss_P.

(** Lines 144-197 (SinCos_Modified_Dissipation). *)
Definition modi_U : comp3 := component3
  (fun t x y z => (1 - sin (2 * PI * t)) * cos (2 * PI * z))
  (mkown3
     (Some (fun t x y z => - 2 * PI * cos (2 * PI * t) * cos (2 * PI * z)))
     (Some nil3) (Some nil3)
     (Some (fun t x y z =>
        - 2 * PI * (1 - sin (2 * PI * t)) * sin (2 * PI * z)))
     (Some nil3) (Some nily3)
     (Some (fun t x y z =>
        -4 * PI ^ 2 * (1 - sin (2 * PI * t)) * cos (2 * PI * z)))).
Definition modi_V : comp3 := component3
  (fun t x y z => (1 + cos (2 * PI * t)) * sin (2 * PI * z))
  (mkown3
     (Some (fun t x y z => -2 * PI * sin (2 * PI * t) * sin (2 * PI * z)))
     (Some nil3) (Some nil3)
     (Some (fun t x y z =>
        2 * PI * (1 + cos (2 * PI * t)) * cos (2 * PI * z)))
     (Some nil3) (Some nil3)
     (Some (fun t x y z =>
        - 4 * PI ^ 2 * (1 + cos (2 * PI * t)) * sin (2 * PI * z)))).
Definition modi_W : comp3 := component3
  (fun t x y z => (1 - sin (2 * PI * t)) * sin (2 * PI * x))
  (mkown3
     (Some (fun t x y z => - 2 * PI * cos (2 * PI * t) * sin (2 * PI * x)))
     (Some (fun t x y z =>
        2 * PI * (1 - sin (2 * PI * t)) * cos (2 * PI * x)))
     (Some nil3) (Some nil3)
     (Some (fun t x y z =>
        - 4 * PI ^ 2 * (1 - sin (2 * PI * t)) * sin (2 * PI * x)))
     (Some nil3) (Some nil3)).
Definition modi_p : field3 := fun t x y z =>
  sin (2 * PI * (x + y + z + t)).
Definition modi_px : field3 := fun t x y z =>
  2 * PI * cos (2 * PI * (x + y + z + t)).
Definition modi_P : comp3 := component3 modi_p
  (mkown3 None (Some modi_px) (Some modi_px) (Some modi_px)
     None None None).
Definition modi (nu : R) : flow3 := mkflow3 nu modi_U modi_V modi_W modi_P.

(** Taylor_Green_vortex.py lines 44-70 (TGV1). *)
Section TGV1.
Variables L V0 : R.
Definition tgv1_U : comp3 := component3
  (fun t x y z => V0 * sin (x / L) * cos (y / L) * cos (z / L))
  (mkown3 None
     (Some (fun t x y z =>
        (V0 / L) * cos (x / L) * cos (y / L) * cos (z / L)))
     (Some (fun t x y z =>
        - (V0 / L) * sin (x / L) * sin (y / L) * cos (z / L)))
     (Some (fun t x y z =>
        - (V0 / L) * sin (x / L) * cos (y / L) * sin (z / L)))
     None None None).
Definition tgv1_V : comp3 := component3
  (fun t x y z => - V0 * cos (x / L) * sin (y / L) * cos (z / L))
  (mkown3 None
     (Some (fun t x y z =>
        (V0 / L) * sin (x / L) * sin (y / L) * cos (z / L)))
     (Some (fun t x y z =>
        - (V0 / L) * cos (x / L) * cos (y / L) * cos (z / L)))
     (Some (fun t x y z =>
        (V0 / L) * cos (x / L) * sin (y / L) * sin (z / L)))
     None None None).
Definition tgv1_W : comp3 := component3 nil3
  (mkown3 None (Some nil3) (Some nil3) (Some nil3) None None None).
End TGV1.

(** *** MHD *)

(** incompressibleMHD/analytic_solution_1.py lines 26-76 (AS1). *)
Definition as1_h (a : R) : R := (a ^ 2 - a) ^ 2.
Definition as1_hp (a : R) : R := 2 * (a ^ 2 - a) * (2 * a - 1).
Definition as1_g1 (t : R) : R := 4 - 2 * t.
Definition as1_g2 (t : R) : R := 1 + t.
Definition as1_g3 (t : R) : R := 1 - t.
Definition as1_u : field3 := fun t x y z =>
  - as1_g1 t * as1_hp x * as1_h y * as1_h z.
Definition as1_v : field3 := fun t x y z =>
  - as1_g2 t * as1_h x * as1_hp y * as1_h z.
Definition as1_w : field3 := fun t x y z =>
  - as1_g3 t * as1_h x * as1_h y * as1_hp z.
Definition as1_p : field3 := fun t x y z => as1_h x * as1_h y * as1_h z.
Definition as1_U : comp3 := component3 as1_u none3.
Definition as1_V : comp3 := component3 as1_v none3.
Definition as1_W : comp3 := component3 as1_w none3.
Definition as1_bx : field3 := fun t x y z =>
  c_y as1_W t x y z - c_z as1_V t x y z.
Definition as1_by : field3 := fun t x y z =>
  c_z as1_U t x y z - c_x as1_W t x y z.
Definition as1_bz : field3 := fun t x y z =>
  c_x as1_V t x y z - c_y as1_U t x y z.
Definition as1_s : field3 := fun t x y z =>
  c_x as1_U t x y z + c_y as1_V t x y z + c_z as1_W t x y z.
Definition as1 (rf rm : reynolds) (c : R) : option mhd :=
  make_mhd rf rm c as1_U as1_V as1_W (component3 as1_p none3)
    (component3 as1_bx none3) (component3 as1_by none3)
    (component3 as1_bz none3).

(** analytic_solution_2.py lines 25-46 (AS2). *)
Definition as2_u : field3 := fun t x y z =>
  sin x * cos y * cos z * exp (t / PI).
Definition as2_v : field3 := fun t x y z =>
  cos x * sin y * cos z * exp (t / PI).
Definition as2_w : field3 := fun t x y z =>
  -2 * cos x * cos y * sin z * exp (t / PI).
Definition as2_bx : field3 := fun t x y z =>
  cos x * cos y * cos z * exp (t / PI).
Definition as2_by : field3 := fun t x y z =>
  sin x * sin y * cos z * exp (t / PI).
Definition as2_bz : field3 := fun t x y z => cos x * sin y * exp (t / PI).

Definition as2_p : field3 := fun t x y z =>
  sin x * sin y * sin z * exp (t / PI).
Definition as2 (rf rm : reynolds) (c : R) : option mhd :=
  make_mhd rf rm c (component3 as2_u none3) (component3 as2_v none3)
    (component3 as2_w none3) (component3 as2_p none3)
    (component3 as2_bx none3) (component3 as2_by none3)
    (component3 as2_bz none3).

(** incompressibleMHD/sin_cos.py lines 23-49 (MHD_SinCos1). *)
Definition msc_p : field3 := fun t x y z => sin (2 * PI * (x + y + z)) + t.
Definition msc (rf rm : reynolds) (c : R) : option mhd :=
  make_mhd rf rm c (component3 cons_u none3) (component3 cons_v none3)
    (component3 cons_w none3) (component3 msc_p none3)
    (component3 cons_u none3) (component3 cons_v none3)
    (component3 cons_w none3).

(** analytic_solution_3.py lines 28-44 (AS3). *)
Definition as3_u : field3 := fun t x y z => sin x * cos y * cos z.
Definition as3_v : field3 := fun t x y z => cos x * sin y * cos z.
Definition as3_w : field3 := fun t x y z => -2 * cos x * cos y * sin z.
Definition as3_bx : field3 := fun t x y z => cos x * cos y * cos z.
Definition as3_by : field3 := fun t x y z => sin x * sin y * cos z.
Definition as3_bz : field3 := fun t x y z => cos x * sin y.

(** *** Stokes, Poisson, wave and Schroedinger equations *)

(** Stokes/sin_cos_1.py lines 18-29. *)
Definition st_p : field3 := fun t x y z =>
  sin (2 * PI * x) * sin (2 * PI * y) * sin (2 * PI * z).
Definition st_u : field3 := fun t x y z =>
  cos (2 * PI * x) * sin (2 * PI * y) * sin (2 * PI * z).
Definition st_v : field3 := fun t x y z =>
  sin (2 * PI * x) * cos (2 * PI * y) * sin (2 * PI * z).
Definition st_w : field3 := fun t x y z =>
  - 2 * sin (2 * PI * x) * sin (2 * PI * y) * cos (2 * PI * z).

(** Poisson/Sin_Cos.py lines 18-19. *)
Definition po_phi : field3 := fun t x y z =>
  sin (2 * PI * x) * sin (2 * PI * y) * sin (2 * PI * z) + t.

(** wave_equations/analytical_solution1.py lines 22-23. *)
Definition wa_phi : field3 := fun t x y z =>
  sin (2 * PI * x) * sin (2 * PI * y) * sin (2 * PI * z) * exp (t / PI).

(** timeIndependentSchrodingerEquation/sin_cos_1.py lines 14-19. *)
Definition ti_psi : field3 := fun t x y z =>
  sin (2 * PI * x) * sin (2 * PI * y) * sin (2 * PI * z).
Definition ti_V (hbar m E : R) : field3 := fun t x y z =>
  E - 12 * PI ^ 2 * alpha hbar m.

(** *** Two dimensions *)

(** _2d/exactSolutions/incompressibleNavierStokes/Taylor_Green_vortex.py
    lines 38-46. *)
Definition tgv_u (nu : R) : field2 := fun t x y =>
  - sin (PI * x) * cos (PI * y) * exp (-2 * PI ^ 2 * nu * t).
Definition tgv_v (nu : R) : field2 := fun t x y =>
  cos (PI * x) * sin (PI * y) * exp (-2 * PI ^ 2 * nu * t).
Definition tgv_p (nu : R) : field2 := fun t x y =>
  / 4 * (cos (2 * PI * x) + cos (2 * PI * y))
  * exp (- 4 * PI ^ 2 * nu * t).

(** scalarLaplace/SinCos.py line 11. *)
Definition la_p : field2 := fun t x y => sin (2 * PI * x) * sin (2 * PI * y).

(** triangular/exactSolution/Stokes/sin_cos_1.py lines 28-35. *)
Definition st2_p : field2 := fun t x y =>
  sin (2 * PI * x) * sin (2 * PI * y).
Definition st2_u : field2 := fun t x y =>
  cos (2 * PI * x) * sin (2 * PI * y).
Definition st2_v : field2 := fun t x y =>
  - sin (2 * PI * x) * cos (2 * PI * y).

(** dipole_collision.py lines 59-68 (the constructor) and 130-183. The scale
    of the velocity is computed by quadrature and is any number here (it is 1
    in triangular/exactSolution/dimensionlessIncompressibleNavierStokes/
    dipole_collision.py, which has no [omega] of its own). *)
Record dipole := mkdipole { dp_x1 : R; dp_y1 : R; dp_x2 : R; dp_y2 : R;
  dp_r0 : R; dp_we1 : R; dp_we2 : R; dp_scale : R }.

Definition make_dipole (x1 y1 x2 y2 r0 we1 we2 scale : R) : option dipole :=
  if Req_EM_T (we1 + we2) 0
  then Some (mkdipole x1 y1 x2 y2 r0 we1 we2 scale) else None.

Definition dp_r1_square (d : dipole) (x y : R) : R :=
  (x - dp_x1 d) ^ 2 + (y - dp_y1 d) ^ 2.
Definition dp_r2_square (d : dipole) (x y : R) : R :=
  (x - dp_x2 d) ^ 2 + (y - dp_y2 d) ^ 2.

Definition dp_u (d : dipole) : field2 := fun t x y =>
  let abs_we := Rabs (dp_we1 d) in
  let term1 := - / 2 * abs_we * (y - dp_y1 d)
    * exp (- dp_r1_square d x y / dp_r0 d ^ 2) in
  let term2 := / 2 * abs_we * (y - dp_y2 d)
    * exp (- dp_r2_square d x y / dp_r0 d ^ 2) in
  dp_scale d * (term1 + term2).
Definition dp_v (d : dipole) : field2 := fun t x y =>
  let abs_we := Rabs (dp_we1 d) in
  let term1 := / 2 * abs_we * (x - dp_x1 d)
    * exp (- dp_r1_square d x y / dp_r0 d ^ 2) in
  let term2 := - / 2 * abs_we * (x - dp_x2 d)
    * exp (- dp_r2_square d x y / dp_r0 d ^ 2) in
  dp_scale d * (term1 + term2).
Definition dp_omega (d : dipole) : field2 := fun t x y =>
  let omega_1 := dp_we1 d * (1 - dp_r1_square d x y / dp_r0 d ^ 2)
    * exp (- dp_r1_square d x y / dp_r0 d ^ 2) in
  let omega_2 := dp_we2 d * (1 - dp_r2_square d x y / dp_r0 d ^ 2)
    * exp (- dp_r2_square d x y / dp_r0 d ^ 2) in
  dp_scale d * (omega_2 + omega_1).

(** dipole_collision.py lines 99-106: the third argument of
    [np.logical_and] is where the result is put, so each line tests two
    conditions only. The points of an outline. *)
Definition rle (a b : R) : bool := if Rle_dec a b then true else false.
Definition req (a b : R) : bool := if Req_EM_T a b then true else false.
Definition outline_ok (ps : list (R * R)) : bool :=
  let U := forallb (fun '(x, y) => req x (-1) && rle (-1) y) ps in
  let D := forallb (fun '(x, y) => req x 1 && rle (-1) y) ps in
  let L := forallb (fun '(x, y) => req y (-1) && rle (-1) x) ps in
  let R := forallb (fun '(x, y) => req y 1 && rle (-1) x) ps in
  U || D || L || R.

(** components/miscellaneous/generalized_piecewise_function.py lines 103-133 at one
    point:
    every condition that holds writes the value of its function; with one
    more function than conditions the last one is used where no condition
    holds; elsewhere the value is [fillvalue]. Conversion to the type of the
    input arrays is not modelled. *)
Fixpoint place {A} (out : A) (l : list (bool * A)) : A :=
  match l with
  | [] => out
  | (c, v) :: r => place (if c then v else out) r
  end.
Definition genpiecewise {A} (fill : A) (conds : list bool) (funs : list A)
  : option A :=
  if Nat.eqb (length conds) (length funs)
  then match conds with
       | [] => None
       | _ => Some (place fill (combine conds funs))
       end
  else if Nat.eqb (S (length conds)) (length funs)
  then Some (place fill
         (combine (conds ++ [negb (fold_left orb conds false)]) funs))
  else None.

(** Euler/shear_layer_rollup.py lines 49-60. *)
Definition shear_u (delta : R) : field2 := fun t x y =>
  override (genpiecewise 0 [rle y PI; negb (rle y PI)]
    [tanh ((y - PI / 2) / delta); tanh ((3 * PI / 2 - y) / delta)]) 0.
Definition shear_v (epsilon : R) : field2 := fun t x y => epsilon * sin x.

(** _2d/mesh/domain/inputs/cic.py lines 49-53: the checks of the cylinder in
    a channel, as written. *)
Record channel := mkchannel { ch_h : R; ch_r : R; ch_li : R; ch_lo : R }.
Definition make_channel (h r li lo : R) : option channel :=
  if is_positive h && is_positive r && is_positive r && is_positive r
     && negb (rle (h / 2) r)
  then Some (mkchannel h r li lo) else None.

(** flow_round_cylinder.py lines 55-65: the velocity given on the
    boundary. *)
Definition fc_u (c : channel) (inlet : R) : field2 := fun t x y =>
  let limit := - (ch_r c + ch_li c) in
  override (genpiecewise 0 [negb (rle limit x); rle limit x]
    [0 * x + inlet; 0 * x]) 0.
Definition fc_v : field2 := fun t x y => 0 * x.
