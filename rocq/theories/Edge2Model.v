(* Edges of the regions of 2D structured meshes: straight lines and circular
   arcs between two corners of the region, over the reals. *)
From Coq Require Import Reals.
From Verif Require Import TransModel.
Local Open Scope R_scope.

(* np.hypot *)
Definition hypot (x y : R) : R := sqrt (x * x + y * y).

(* components/functions/_2dSpace/angle.py 6-25 *)
Definition angle (o p : R * R) : R :=
  let x1 := 1 in let y1 := 0 in
  let x2 := fst p - fst o in let y2 := snd p - snd o in
  let inner := x1 * x2 + y1 * y2 in
  let len1 := hypot x1 y1 in let len2 := hypot x2 y2 in
  if Rlt_dec y2 0 then 2 * PI - acos (inner / (len1 * len2))
  else acos (inner / (len1 * len2)).

(* objects/CSCG/_2d/mesh/domain/regions/region/edge_geometries/straight.py:
   X, Y 16-24 and Xo, Yo 19-25; the two rows of corner_coordinates *)
Definition straight (a b : R * R) : curve :=
  mkCurve (fun o => fst a + o * (fst b - fst a)) (fun o => snd a + o * (snd b - snd a)).
Definition straight_o (a b : R * R) : curve :=
  mkCurve (fun _ => (fst b - fst a) * 1) (fun _ => (snd b - snd a) * 1).

(* acw.py 18 and aacw.py 18: the radius comes from the first corner; the
   assertion 19-20 compares it with the distance of the second one up to 1e-12 *)
Definition arc_r (ctr a : R * R) : R :=
  sqrt ((fst a - fst ctr) ^ 2 + (snd a - snd ctr) ^ 2).
Definition arc_ok (ctr a b : R * R) : Prop :=
  Rabs (arc_r ctr a - arc_r ctr b) < 10 / 10000000000000.
Definition start_theta (ctr a : R * R) : R := angle ctr a.
(* acw.py 22-23 *)
Definition acw_end (ctr a b : R * R) : R :=
  if Rlt_dec (angle ctr a) (angle ctr b) then angle ctr b - 2 * PI else angle ctr b.
(* aacw.py 22-23 *)
Definition aacw_end (ctr a b : R * R) : R :=
  if Rlt_dec (angle ctr b) (angle ctr a) then angle ctr b + 2 * PI else angle ctr b.
(* X, Y and Xo, Yo of acw.py 26-40 and aacw.py 26-41 *)
Definition arc (ctr : R * R) (rad th0 th1 : R) : curve :=
  mkCurve (fun o => let theta := o * (th1 - th0) + th0 in fst ctr + rad * cos theta)
          (fun o => let theta := o * (th1 - th0) + th0 in snd ctr + rad * sin theta).
Definition arc_o (rad th0 th1 : R) : curve :=
  mkCurve (fun o => let theta := o * (th1 - th0) + th0 in - rad * sin theta * (th1 - th0))
          (fun o => let theta := o * (th1 - th0) + th0 in rad * cos theta * (th1 - th0)).

(* edge_geometries/allocator.py 29-35 without 'free' and 'customized' *)
Inductive edge_type := eStraight | eACW (ctr : R * R) | eAACW (ctr : R * R).
Definition edge_curve (e : edge_type) (a b : R * R) : curve :=
  match e with
  | eStraight => straight a b
  | eACW c => arc c (arc_r c a) (start_theta c a) (acw_end c a b)
  | eAACW c => arc c (arc_r c a) (start_theta c a) (aacw_end c a b)
  end.
Definition edge_curve_o (e : edge_type) (a b : R * R) : curve :=
  match e with
  | eStraight => straight_o a b
  | eACW c => arc_o (arc_r c a) (start_theta c a) (acw_end c a b)
  | eAACW c => arc_o (arc_r c a) (start_theta c a) (aacw_end c a b)
  end.

(* a 2D region: corners UL, DL, UR, DR and the types of the edges U, D, L, R;
   region/main.py 116-136 with _edge_corner_local_numbering_ of
   inheriting/topology.py 53-61 *)
Record Region2 := mkRegion2 { kUL : R * R; kDL : R * R; kUR : R * R; kDR : R * R;
                              tU : edge_type; tD : edge_type; tL : edge_type; tR : edge_type }.
Definition edge_U (g : Region2) := edge_curve (tU g) (kUL g) (kUR g).
Definition edge_D (g : Region2) := edge_curve (tD g) (kDL g) (kDR g).
Definition edge_L (g : Region2) := edge_curve (tL g) (kUL g) (kDL g).
Definition edge_R (g : Region2) := edge_curve (tR g) (kUR g) (kDR g).
Definition edge_U_o (g : Region2) := edge_curve_o (tU g) (kUL g) (kUR g).
Definition edge_D_o (g : Region2) := edge_curve_o (tD g) (kDL g) (kDR g).
Definition edge_L_o (g : Region2) := edge_curve_o (tL g) (kUL g) (kDL g).
Definition edge_R_o (g : Region2) := edge_curve_o (tR g) (kUR g) (kDR g).

(* interpolations/transfinite/main.py 9-29: the mapping is given the edges in
   the order L, D, R, U; interpolations/transfinite/mapping.py is the copy of
   components/functions/_2dSpace/transfinite.py modelled in TransModel *)
Definition region2_transfinite (g : Region2) : transfinite :=
  mkT (edge_L g) (edge_D g) (edge_R g) (edge_U g)
      (edge_L_o g) (edge_D_o g) (edge_R_o g) (edge_U_o g).
