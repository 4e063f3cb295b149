(** Model of components/functions/_2dSpace/transfinite.py:26-146 over the real numbers. *)
From Coq Require Import Reals.
Local Open Scope R_scope.

(** The four boundary curves and the derivatives passed with them (lines 57-58), each as its x and y part. *)
Record curve := mkCurve { cx : R -> R; cy : R -> R }.
Record transfinite := mkT { g0 : curve; g1 : curve; g2 : curve; g3 : curve; d0 : curve; d1 : curve; d2 : curve; d3 : curve }.

(** lines 59-62: the corner values are those of curves 0 and 2 *)
Definition g1_x0 (T : transfinite) := cx (g0 T) 0.  Definition g1_y0 (T : transfinite) := cy (g0 T) 0.
Definition g1_x1 (T : transfinite) := cx (g0 T) 1.  Definition g1_y1 (T : transfinite) := cy (g0 T) 1.
Definition g3_x0 (T : transfinite) := cx (g2 T) 0.  Definition g3_y0 (T : transfinite) := cy (g2 T) 0.
Definition g3_x1 (T : transfinite) := cx (g2 T) 1.  Definition g3_y1 (T : transfinite) := cy (g2 T) 1.

(** x, lines 80-87 (and mapping, 69-73) *)
Definition map_x (T : transfinite) (r s : R) : R :=
  (1-r)*cx (g3 T) s + r*cx (g1 T) s + (1-s)*cx (g0 T) r + s*cx (g2 T) r -
  (1-r)*((1-s)*g1_x0 T + s*g3_x0 T) - r*((1-s)*g1_x1 T + s*g3_x1 T).
(** y, lines 89-96 (and mapping, 74-76) *)
Definition map_y (T : transfinite) (r s : R) : R :=
  (1-r)*cy (g3 T) s + r*cy (g1 T) s + (1-s)*cy (g0 T) r + s*cy (g2 T) r -
  (1-r)*((1-s)*g1_y0 T + s*g3_y0 T) - r*((1-s)*g1_y1 T + s*g3_y1 T).
(** dx_dr, lines 98-107 *)
Definition dx_dr (T : transfinite) (r s : R) : R :=
  - cx (g3 T) s + cx (g1 T) s + (1-s)*cx (d0 T) r + s*cx (d2 T) r +
  ((1-s)*g1_x0 T + s*g3_x0 T) - ((1-s)*g1_x1 T + s*g3_x1 T).
(** dx_ds, lines 109-118 *)
Definition dx_ds (T : transfinite) (r s : R) : R :=
  (1-r)*cx (d3 T) s + r*cx (d1 T) s - cx (g0 T) r + cx (g2 T) r -
  (1-r)*(- g1_x0 T + g3_x0 T) - r*(- g1_x1 T + g3_x1 T).
(** dy_dr, lines 120-129 *)
Definition dy_dr (T : transfinite) (r s : R) : R :=
  - cy (g3 T) s + cy (g1 T) s + (1-s)*cy (d0 T) r + s*cy (d2 T) r +
  ((1-s)*g1_y0 T + s*g3_y0 T) - ((1-s)*g1_y1 T + s*g3_y1 T).
(** dy_ds, lines 131-140 *)
Definition dy_ds (T : transfinite) (r s : R) : R :=
  (1-r)*cy (d3 T) s + r*cy (d1 T) s - cy (g0 T) r + cy (g2 T) r -
  (1-r)*(- g1_y0 T + g3_y0 T) - r*(- g1_y1 T + g3_y1 T).
