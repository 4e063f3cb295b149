(* The coordinate transformation of a triangle and the discretization of
   scalars and vectors to standard forms on triangular meshes:
   objects/miUsGrid/triangular/mesh/elements/element/coordinate_transformation/main.py
   and objects/miUsGrid/triangular/forms/standard/_0, _1, _2.  Conventions as in
   DiscModel and Disc2Model; the caches of the points are not modelled. *)
From Coq Require Import Reals List ZArith.
From Verif Require Import TfiModel CtModel DiscModel Disc2Model TriModel.
From Verif Require TransModel.
Import ListNotations.
Open Scope R_scope.

(* ---------- coordinate_transformation/main.py ---------- *)
(* a + o * (b - a), the _Pr_?_XY of lines 40-48 *)
Definition line (a b : point) : TransModel.curve :=
  TransModel.mkCurve (fun o => fst a + o * (fst b - fst a)) (fun o => snd a + o * (snd b - snd a)).
(* lines 53-61 *)
Definition dline (a b : point) : TransModel.curve :=
  TransModel.mkCurve (fun _ => fst b - fst a) (fun _ => snd b - snd a).
(* lines 22-37, 49-51, 62-65: the curves L, D, R, U and their derivatives.
   TransModel is the same transformation as
   objects/CSCG/_2d/mesh/domain/regions/region/interpolations/transfinite/mapping.py:42-128;
   the check of the derivatives at three points in lines 33-40 there is not modelled. *)
Definition tri_T (a b c : point) : TransModel.transfinite :=
  TransModel.mkT (TransModel.mkCurve (fun _ => fst a) (fun _ => snd a)) (line a b) (line c b) (line a c)
    (TransModel.mkCurve (fun _ => 0) (fun _ => 0)) (dline a b) (dline c b) (dline a c).
(* mapping 69-73 *)
Definition tct_mapping (a b c : point) : emap2 :=
  (fun r s => TransModel.map_x (tri_T a b c) ((r + 1) / 2) ((s + 1) / 2),
   fun r s => TransModel.map_y (tri_T a b c) ((r + 1) / 2) ((s + 1) / 2)).
(* Jacobian_matrix 75-80; Jacobian 82-88, metric 90-101, inverse_Jacobian_matrix 103-117,
   inverse_Jacobian 119-125, metric_matrix 127-149 and inverse_metric_matrix 151-171 are
   ct2_Jacobian, ct2_metric, ct2_inverse, ct2_inverse_Jacobian, ct2_metric_matrix and
   ct2_inverse_metric_matrix of Disc2Model, written with the same formulas *)
Definition tct_Jacobian_matrix (a b c : point) : ejac2 := fun r s =>
  ((1 / 2 * TransModel.dx_dr (tri_T a b c) ((r + 1) / 2) ((s + 1) / 2),
    1 / 2 * TransModel.dx_ds (tri_T a b c) ((r + 1) / 2) ((s + 1) / 2)),
   (1 / 2 * TransModel.dy_dr (tri_T a b c) ((r + 1) / 2) ((s + 1) / 2),
    1 / 2 * TransModel.dy_ds (tri_T a b c) ((r + 1) / 2) ((s + 1) / 2))).

(* ---------- _0/base/discretize/scalar/standard.py 30-49 ---------- *)
Definition tdisc0 (p : nat) (n : list R) (F : emap2) (f : fun2) : list R :=
  map (fun q => at_map2 f F (fst q) (snd q)) (skipn p (mesh2 n n)).

(* ---------- _1/outer and _1/inner/discretize/vector/standard.py ---------- *)
(* 72-78: xi[:, p:] and so on, the columns of the collapsed edge are cut; the
   arrays are lists of columns *)
Definition cut_prep (p : nat) (P : prep2) : prep2 :=
  match P with (xi, eta, es) => (skipn p xi, skipn p eta, skipn p es) end.
(* 23-51, 105-127 *)
Definition tdisc_dx (o : orient) (p : nat) (n : list R) (r0 : rule) (F : emap2) (J : ejac2) (v : emap2) : list R :=
  part2 (cut_prep p (prep2_x n n p p (fst r0))) (snd r0)
        (match o with Outer => outer_x F J v false | Inner => inner_x F J v false end).
Definition tdisc_dy (o : orient) (p : nat) (n : list R) (r1 : rule) (F : emap2) (J : ejac2) (v : emap2) : list R :=
  part2 (prep2_y n n p p (fst r1)) (snd r1)
        (match o with Outer => outer_y F J v false | Inner => inner_y F J v false end).
(* 129-141: hstack and the transition matrix of element c *)
Definition tdisc1 (o : orient) (p : nat) (n : list R) (r0 r1 : rule) (M : smap) (c : nat) (F : emap2) (J : ejac2) (v : emap2) : list R :=
  let dx := tdisc_dx o p n r0 F J v in
  let dy := tdisc_dy o p n r1 F J v in
  let l := match o with Outer => dy ++ dx | Inner => dx ++ dy end in
  map (fun kx => IZR (transition o p M c (fst kx)) * snd kx) (combine (seq 0 (length l)) l).

(* ---------- _2/base/discretize/scalar/standard.py 30-75 ---------- *)
Definition tdisc2 (p : nat) (n : list R) (r0 r1 : rule) (F : emap2) (J : ejac2) (f : fun2) : list R :=
  disc2_2 n n p p r0 r1 F J f.
