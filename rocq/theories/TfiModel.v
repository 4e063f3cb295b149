(* Region interpolations of the structured meshes: the maps from the unit cube
   (square) onto a region, with their Jacobian matrices, pointwise over the
   reals.  Numpy works elementwise on arrays of points; one point is modelled.
   Rounding is not modelled. *)
From Coq Require Import Reals List.
Import ListNotations.
Open Scope R_scope.

(* the component of a point: [0], [1], [2] of the tuples in
   objects/CSCG/_3d/mesh/domain/regions/region/interpolations/transfinite.py *)
Inductive coord := cX | cY | cZ.

(* a side geometry, objects/CSCG/_3d/mesh/domain/regions/region/
   side_geometries/{plane,customized}.py: X, Y, Z and their derivatives with
   respect to the first (Xp, Yp, Zp) and the second argument (Xq, Yq, Zq);
   customized.py 21-41 just calls the functions of the side type *)
Record Side := mkSide {
  sval : coord -> R -> R -> R;
  sdp  : coord -> R -> R -> R;
  sdq  : coord -> R -> R -> R }.

(* region._side_geometries_: six entries, keys 'N','S','W','E','B','F' *)
Record Sides := mkSides { gN : Side; gS : Side; gW : Side;
                          gE : Side; gB : Side; gF : Side }.

(* ---------- transfinite.py ---------- *)
Section Transfinite.
  Variable g : Sides.
  (* the three copies (X, Y, Z) of each method and the three components of the
     array version differ in the index only; one definition with the index as
     a parameter *)
  Variable c : coord.

  (* ___NnN___ ... ___Fs_Fs___, 978-1066 *)
  Definition NnN (s t : R) := sval (gN g) c s t.
  Definition Ns_Ns (s t : R) := sdp (gN g) c s t.
  Definition Nt_Nt (s t : R) := sdq (gN g) c s t.
  Definition SsS (s t : R) := sval (gS g) c s t.
  Definition Ss_Ss (s t : R) := sdp (gS g) c s t.
  Definition St_St (s t : R) := sdq (gS g) c s t.
  Definition WwW (r t : R) := sval (gW g) c r t.
  Definition Wr_Wr (r t : R) := sdp (gW g) c r t.
  Definition Wt_Wt (r t : R) := sdq (gW g) c r t.
  Definition EeE (r t : R) := sval (gE g) c r t.
  Definition Er_Er (r t : R) := sdp (gE g) c r t.
  Definition Et_Et (r t : R) := sdq (gE g) c r t.
  Definition BbB (r s : R) := sval (gB g) c r s.
  Definition Br_Br (r s : R) := sdp (gB g) c r s.
  Definition Bs_Bs (r s : R) := sdq (gB g) c r s.
  Definition FfF (r s : R) := sval (gF g) c r s.
  Definition Fr_Fr (r s : R) := sdp (gF g) c r s.
  Definition Fs_Fs (r s : R) := sdq (gF g) c r s.

  (* ___NW___ ... ___FE___, 1067-1244 *)
  Definition l_NW (t : R) := sval (gN g) c 0 t.
  Definition l_NW_t (t : R) := sdq (gN g) c 0 t.
  Definition l_NE (t : R) := sval (gN g) c 1 t.
  Definition l_NE_t (t : R) := sdq (gN g) c 1 t.
  Definition l_NB (s : R) := sval (gN g) c s 0.
  Definition l_NB_s (s : R) := sdp (gN g) c s 0.
  Definition l_NF (s : R) := sval (gN g) c s 1.
  Definition l_NF_s (s : R) := sdp (gN g) c s 1.
  Definition l_SW (t : R) := sval (gS g) c 0 t.
  Definition l_SW_t (t : R) := sdq (gS g) c 0 t.
  Definition l_SE (t : R) := sval (gS g) c 1 t.
  Definition l_SE_t (t : R) := sdq (gS g) c 1 t.
  Definition l_SB (s : R) := sval (gS g) c s 0.
  Definition l_SB_s (s : R) := sdp (gS g) c s 0.
  Definition l_SF (s : R) := sval (gS g) c s 1.
  Definition l_SF_s (s : R) := sdp (gS g) c s 1.
  Definition l_WN (t : R) := sval (gW g) c 0 t.
  Definition l_WS (t : R) := sval (gW g) c 1 t.
  Definition l_WB (r : R) := sval (gW g) c r 0.
  Definition l_WB_r (r : R) := sdp (gW g) c r 0.
  Definition l_WF (r : R) := sval (gW g) c r 1.
  Definition l_WF_r (r : R) := sdp (gW g) c r 1.
  Definition l_EN (t : R) := sval (gE g) c 0 t.
  Definition l_ES (t : R) := sval (gE g) c 1 t.
  Definition l_EB (r : R) := sval (gE g) c r 0.
  Definition l_EB_r (r : R) := sdp (gE g) c r 0.
  Definition l_EF (r : R) := sval (gE g) c r 1.
  Definition l_EF_r (r : R) := sdp (gE g) c r 1.
  Definition l_BN (s : R) := sval (gB g) c 0 s.
  Definition l_BS (s : R) := sval (gB g) c 1 s.
  Definition l_BW (r : R) := sval (gB g) c r 0.
  Definition l_BE (r : R) := sval (gB g) c r 1.
  Definition l_FN (s : R) := sval (gF g) c 0 s.
  Definition l_FS (s : R) := sval (gF g) c 1 s.
  Definition l_FW (r : R) := sval (gF g) c r 0.
  Definition l_FE (r : R) := sval (gF g) c r 1.

  (* ___N_W_B___ ... ___S_E_F___, 1246-1292 *)
  Definition p_NWB := sval (gN g) c 0 0.
  Definition p_NWF := sval (gN g) c 0 1.
  Definition p_NEB := sval (gN g) c 1 0.
  Definition p_NEF := sval (gN g) c 1 1.
  Definition p_SWB := sval (gS g) c 0 0.
  Definition p_SWF := sval (gS g) c 0 1.
  Definition p_SEB := sval (gS g) c 1 0.
  Definition p_SEF := sval (gS g) c 1 1.

  (* mapping 106-160, mapping_X 162-213, mapping_Y 215-266, mapping_Z 268-319 *)
  Definition tf_map (r s t : R) : R :=
    let x1 := (1 - r) * NnN s t + r * SsS s t in
    let x2 := (1 - s) * WwW r t + s * EeE r t in
    let x3 := (1 - t) * BbB r s + t * FfF r s in
    let x12 := (1 - r) * (1 - s) * l_NW t + (1 - r) * s * l_NE t
               + r * (1 - s) * l_SW t + r * s * l_SE t in
    let x13 := (1 - r) * (1 - t) * l_NB s + (1 - r) * t * l_NF s
               + r * (1 - t) * l_SB s + r * t * l_SF s in
    let x23 := (1 - s) * (1 - t) * l_WB r + (1 - s) * t * l_WF r
               + s * (1 - t) * l_EB r + s * t * l_EF r in
    let x123 := (1 - r) * (1 - s) * (1 - t) * p_NWB
                + (1 - r) * (1 - s) * t * p_NWF
                + (1 - r) * s * (1 - t) * p_NEB
                + (1 - r) * s * t * p_NEF
                + r * (1 - s) * (1 - t) * p_SWB
                + r * (1 - s) * t * p_SWF
                + r * s * (1 - t) * p_SEB
                + r * s * t * p_SEF in
    x1 + x2 + x3 - x12 - x13 - x23 + x123.

  (* Jacobian_Xr 444-498, Jacobian_Yr 617-673, Jacobian_Zr 793-849 and the
     first block of Jacobian_matrix 383-401; _1_ is one *)
  Definition tf_Jr (r s t : R) : R :=
    let x1 := - 1 * NnN s t + 1 * SsS s t in
    let x2 := (1 - s) * Wr_Wr r t + s * Er_Er r t in
    let x3 := (1 - t) * Br_Br r s + t * Fr_Fr r s in
    let x12 := - s * l_NE t - (1 - s) * l_NW t + (1 - s) * l_SW t + s * l_SE t in
    let x13 := - t * l_NF s - (1 - t) * l_NB s + (1 - t) * l_SB s + t * l_SF s in
    let x23 := (1 - s) * (1 - t) * l_WB_r r + (1 - s) * t * l_WF_r r
               + s * (1 - t) * l_EB_r r + s * t * l_EF_r r in
    let x123 := - (1 - s) * (1 - t) * p_NWB
                - (1 - s) * t * p_NWF
                - s * (1 - t) * p_NEB
                - s * t * p_NEF
                + (1 - s) * (1 - t) * p_SWB
                + (1 - s) * t * p_SWF
                + s * (1 - t) * p_SEB
                + s * t * p_SEF in
    x1 + x2 + x3 - x12 - x13 - x23 + x123.

  (* Jacobian_Xs 500-557, Jacobian_Ys 675-732, Jacobian_Zs 851-906 and the
     second block of Jacobian_matrix 403-419 *)
  Definition tf_Js (r s t : R) : R :=
    let x1 := (1 - r) * Ns_Ns s t + r * Ss_Ss s t in
    let x2 := - 1 * WwW r t + 1 * EeE r t in
    let x3 := (1 - t) * Bs_Bs r s + t * Fs_Fs r s in
    let x12 := - (1 - r) * l_NW t + (1 - r) * l_NE t - r * l_SW t + r * l_SE t in
    let x13 := (1 - r) * (1 - t) * l_NB_s s + (1 - r) * t * l_NF_s s
               + r * (1 - t) * l_SB_s s + r * t * l_SF_s s in
    let x23 := - t * l_WF r - (1 - t) * l_WB r + (1 - t) * l_EB r + t * l_EF r in
    let x123 := - (1 - r) * (1 - t) * p_NWB
                - (1 - r) * t * p_NWF
                + (1 - r) * (1 - t) * p_NEB
                + (1 - r) * t * p_NEF
                - r * (1 - t) * p_SWB
                - r * t * p_SWF
                + r * (1 - t) * p_SEB
                + r * t * p_SEF in
    x1 + x2 + x3 - x12 - x13 - x23 + x123.

  (* Jacobian_Xt 559-615, Jacobian_Yt 734-791, Jacobian_Zt 908-966 and the
     third block of Jacobian_matrix 421-437 *)
  Definition tf_Jt (r s t : R) : R :=
    let x1 := (1 - r) * Nt_Nt s t + r * St_St s t in
    let x2 := (1 - s) * Wt_Wt r t + s * Et_Et r t in
    let x3 := - 1 * BbB r s + 1 * FfF r s in
    let x12 := (1 - r) * (1 - s) * l_NW_t t + (1 - r) * s * l_NE_t t
               + r * (1 - s) * l_SW_t t + r * s * l_SE_t t in
    let x13 := - (1 - r) * l_NB s + (1 - r) * l_NF s - r * l_SB s + r * l_SF s in
    let x23 := - (1 - s) * l_WB r + (1 - s) * l_WF r - s * l_EB r + s * l_EF r in
    let x123 := - (1 - r) * (1 - s) * p_NWB
                + (1 - r) * (1 - s) * p_NWF
                - (1 - r) * s * p_NEB
                + (1 - r) * s * p_NEF
                - r * (1 - s) * p_SWB
                + r * (1 - s) * p_SWF
                - r * s * p_SEB
                + r * s * p_SEF in
    x1 + x2 + x3 - x12 - x13 - x23 + x123.

  (* one component of the loop body of ___check_line_consistency___, 62-74, at
     one sample point u: np.testing.assert_array_almost_equal with its default
     of 6 decimals asks for a difference below 1.5e-6 *)
  Definition almost (x y : R) : Prop := Rabs (x - y) < 15 / 10000000.
  Definition line_check_at (u : R) : Prop :=
    almost (l_NW u) (l_WN u) /\ almost (l_NE u) (l_EN u) /\
    almost (l_NB u) (l_BN u) /\ almost (l_NF u) (l_FN u) /\
    almost (l_SW u) (l_WS u) /\ almost (l_SE u) (l_ES u) /\
    almost (l_SB u) (l_BS u) /\ almost (l_SF u) (l_FS u) /\
    almost (l_WB u) (l_BW u) /\ almost (l_WF u) (l_FW u) /\
    almost (l_EB u) (l_BE u) /\ almost (l_EF u) (l_FE u).
End Transfinite.

(* np.linspace(0, 1, n), n >= 2 *)
Definition linspace01 (n : nat) : list R :=
  map (fun k => INR k / INR (n - 1)) (seq 0 n).

(* ___check_line_consistency___ 37-83 raises no error; n is the random
   integer of line 47 *)
Definition check_line_consistency (n : nat) (g : Sides) : Prop :=
  forall c u, In u (linspace01 n) -> line_check_at g c u.

(* Jacobian_matrix 324-441: the rows of X, Y and Z *)
Definition mat3 := ((R * R * R) * (R * R * R) * (R * R * R))%type.
Definition tf_Jacobian_matrix (g : Sides) (r s t : R) : mat3 :=
  ((tf_Jr g cX r s t, tf_Js g cX r s t, tf_Jt g cX r s t),
   (tf_Jr g cY r s t, tf_Js g cY r s t, tf_Jt g cY r s t),
   (tf_Jr g cZ r s t, tf_Js g cZ r s t, tf_Jt g cZ r s t)).

(* interpolations/base.py 119-128, Jacobian: the determinant *)
Definition interp_Jacobian (m : mat3) : R :=
  match m with
  | ((a, b, c), (d, e, f), (g, h, i)) =>
      a * (e * i - f * h) - b * (d * i - f * g) + c * (d * h - e * g)
  end.

(* ---------- side_geometries/plane.py ---------- *)
(* _fit_abcd_ 25-42 on the column of one component; the four rows of
   corner_coordinates *)
Definition point := (R * R * R)%type.
Definition get (p : point) (c : coord) : R :=
  match p, c with
  | (x, y, z), cX => x
  | (x, y, z), cY => y
  | (x, y, z), cZ => z
  end.
Definition fit_abcd (q0 q1 q2 q3 : point) (c0 : coord) : R * R * R * R :=
  let d := get q0 c0 in
  let b := get q1 c0 - d in
  let c := get q2 c0 - d in
  let a := get q3 c0 - b - c - d in
  (a, b, c, d).

(* X, Xp, Xq 45-55 (and the Y, Z copies); the check that the corners lie in
   one plane, 19-22, is not modelled *)
Definition plane (q0 q1 q2 q3 : point) : Side := mkSide
  (fun c0 p q => match fit_abcd q0 q1 q2 q3 c0 with
                 | (a, b, c, d) => a * p * q + b * p + c * q + d end)
  (fun c0 p q => match fit_abcd q0 q1 q2 q3 c0 with
                 | (a, b, _, _) => a * q + b + 0 * p end)
  (fun c0 p q => match fit_abcd q0 q1 q2 q3 c0 with
                 | (a, _, c, _) => a * p + c + 0 * q end).

(* region/main.py 125-149, ___PRIVATE_parse_side_types___ with no side type
   given: the rows SC_LN of the eight corners NWB, SWB, NEB, SEB, NWF, SWF,
   NEF, SEF *)
Record Corners := mkCorners { k0 : point; k1 : point; k2 : point; k3 : point;
                              k4 : point; k5 : point; k6 : point; k7 : point }.
Definition plane_sides (k : Corners) : Sides := mkSides
  (plane (k0 k) (k2 k) (k4 k) (k6 k))
  (plane (k1 k) (k3 k) (k5 k) (k7 k))
  (plane (k0 k) (k1 k) (k4 k) (k5 k))
  (plane (k2 k) (k3 k) (k6 k) (k7 k))
  (plane (k0 k) (k1 k) (k2 k) (k3 k))
  (plane (k4 k) (k5 k) (k6 k) (k7 k)).

(* ---------- orthogonal.py (3D) ---------- *)
(* bounds 20-23 from the corner coordinates *)
Definition orth_bounds (k : Corners) : (R * R) * (R * R) * (R * R) :=
  ((get (k0 k) cX, get (k1 k) cX),
   (get (k0 k) cY, get (k2 k) cY),
   (get (k0 k) cZ, get (k4 k) cZ)).
(* mapping 30-41 and mapping_X, mapping_Y, mapping_Z 43-64 *)
Definition orth_map (bd : (R * R) * (R * R) * (R * R)) (c0 : coord) (r s t : R) : R :=
  match bd with
  | ((a, b), (c, d), (e, f)) =>
      match c0 with
      | cX => (b - a) * r + a
      | cY => (d - c) * s + c
      | cZ => (f - e) * t + e
      end
  end.
(* Jacobian_matrix 66-89 and the nine entries 91-144 *)
Definition orth_Jacobian_matrix (bd : (R * R) * (R * R) * (R * R)) (r s t : R) : mat3 :=
  match bd with
  | ((a, b), (c, d), (e, f)) => (((b - a), 0, 0), (0, (d - c), 0), (0, 0, (f - e)))
  end.

(* ---------- crazy.py (3D) ---------- *)
(* mapping 31-47, mapping_X, mapping_Y, mapping_Z 49-77: self.c, the bounds *)
Definition crazy_map (cc : R) (bd : (R * R) * (R * R) * (R * R)) (c0 : coord)
    (r s t : R) : R :=
  match bd with
  | ((a, b), (c, d), (e, f)) =>
      if Req_EM_T cc 0 then
        match c0 with
        | cX => (b - a) * r + a
        | cY => (d - c) * s + c
        | cZ => (f - e) * t + e
        end
      else
        match c0 with
        | cX => (b - a) * (r + 1 / 2 * cc * sin (2 * PI * r) * sin (2 * PI * s) * sin (2 * PI * t)) + a
        | cY => (d - c) * (s + 1 / 2 * cc * sin (2 * PI * r) * sin (2 * PI * s) * sin (2 * PI * t)) + c
        | cZ => (f - e) * (t + 1 / 2 * cc * sin (2 * PI * r) * sin (2 * PI * s) * sin (2 * PI * t)) + e
        end
  end.

(* Jacobian_matrix 79-123 and the nine entries 125-220 *)
Definition crazy_Jacobian_matrix (cc : R) (bd : (R * R) * (R * R) * (R * R))
    (r s t : R) : mat3 :=
  match bd with
  | ((a, b), (c, d), (e, f)) =>
      if Req_EM_T cc 0 then
        (((b - a) * 1, 0, 0), (0, (d - c) * 1, 0), (0, 0, (f - e) * 1))
      else
        let sr := sin (2 * PI * r) in let cr := cos (2 * PI * r) in
        let ss := sin (2 * PI * s) in let cs := cos (2 * PI * s) in
        let st := sin (2 * PI * t) in let ct := cos (2 * PI * t) in
        (((b - a) + (b - a) * 2 * PI * (1 / 2) * cc * cr * ss * st,
          (b - a) * 2 * PI * (1 / 2) * cc * sr * cs * st,
          (b - a) * 2 * PI * (1 / 2) * cc * sr * ss * ct),
         ((d - c) * 2 * PI * (1 / 2) * cc * cr * ss * st,
          (d - c) + (d - c) * 2 * PI * (1 / 2) * cc * sr * cs * st,
          (d - c) * 2 * PI * (1 / 2) * cc * sr * ss * ct),
         ((f - e) * 2 * PI * (1 / 2) * cc * cr * ss * st,
          (f - e) * 2 * PI * (1 / 2) * cc * sr * cs * st,
          (f - e) + (f - e) * 2 * PI * (1 / 2) * cc * sr * ss * ct))
  end.

(* ---------- crazy.py (2D), objects/CSCG/_2d/mesh/domain/regions/region/
   interpolations/crazy.py 23-44 and 47-84 ---------- *)
Definition crazy2_map (cc : R) (bd : (R * R) * (R * R)) (i : bool) (r s : R) : R :=
  match bd with
  | ((a, b), (c, d)) =>
      if i then (d - c) * (s + 1 / 2 * cc * sin (2 * PI * r) * sin (2 * PI * s)) + c
      else (b - a) * (r + 1 / 2 * cc * sin (2 * PI * r) * sin (2 * PI * s)) + a
  end.
Definition mat2 := ((R * R) * (R * R))%type.
Definition crazy2_Jacobian_matrix (cc : R) (bd : (R * R) * (R * R)) (r s : R) : mat2 :=
  match bd with
  | ((a, b), (c, d)) =>
      (((b - a) + (b - a) * 2 * PI * (1 / 2) * cc * cos (2 * PI * r) * sin (2 * PI * s),
        (b - a) * 2 * PI * (1 / 2) * cc * sin (2 * PI * r) * cos (2 * PI * s)),
       ((d - c) * 2 * PI * (1 / 2) * cc * cos (2 * PI * r) * sin (2 * PI * s),
        (d - c) + (d - c) * 2 * PI * (1 / 2) * cc * sin (2 * PI * r) * cos (2 * PI * s)))
  end.

(* ---------- region/main.py 77-84, volume ---------- *)
(* quad_ndim_ravel: nodes of the tensor Gauss rule on [-1,1]^3 with their
   weights; the determinant is evaluated at the nodes as they are *)
Definition region_volume (quad : list (R * R * R * R)) (J : R -> R -> R -> mat3) : R :=
  fold_right Rplus 0
    (map (fun q => match q with (x, y, z, w) => interp_Jacobian (J x y z) * w end) quad) / 8.
