(* Discretization of scalars and vectors to standard forms on one element of a
   2D structured mesh: objects/CSCG/_2d/forms/standard/_0_form, _1_form, _2_form,
   and the coordinate transformation of such an element:
   objects/CSCG/_2d/mesh/elements/element/coordinate_transformation/main.py.
   Conventions as in DiscModel. *)
From Coq Require Import Reals List.
From Verif Require Import TfiModel CtModel DiscModel.
Import ListNotations.
Open Scope R_scope.

Definition fun2 := R -> R -> R.
(* x and y components *)
Definition emap2 := (fun2 * fun2)%type.
Definition ejac2 := R -> R -> mat22.
Definition at_map2 (f : fun2) (F : emap2) (x y : R) : R := f (fst F x y) (snd F x y).

(* ---------- coordinate_transformation/main.py ---------- *)
(* origin and delta of the element in the reference square of its region *)
Record Elem2 := mkElem2 { o0 : R; o1 : R; d0 : R; d1 : R }.
Definition to_ref2 (o d x : R) : R := (x + 1) * (1 / 2) * d + o.
(* mapping 45-48 *)
Definition ct2_mapping (phi : emap2) (e : Elem2) : emap2 :=
  (fun x y => fst phi (to_ref2 (o0 e) (d0 e) x) (to_ref2 (o1 e) (d1 e) y),
   fun x y => snd phi (to_ref2 (o0 e) (d0 e) x) (to_ref2 (o1 e) (d1 e) y)).
(* Jacobian_matrix 60-77; orth: the mark is a string that starts with 'Orth' *)
Definition ct2_Jacobian_matrix (dphi : ejac2) (e : Elem2) (orth : bool) : ejac2 := fun x y =>
  match dphi (to_ref2 (o0 e) (d0 e) x) (to_ref2 (o1 e) (d1 e) y) with
  | ((xr, xs), (yr, ys)) =>
      if orth then ((xr * (d0 e / 2), 0), (0, ys * (d1 e / 2)))
      else ((xr * (d0 e / 2), xs * (d1 e / 2)), (yr * (d0 e / 2), ys * (d1 e / 2)))
  end.
(* Jacobian 105-109 *)
Definition ct2_Jacobian (m : mat22) : R :=
  match m with ((j00, j01), (j10, j11)) => j00 * j11 - j01 * j10 end.
(* metric 111-120 *)
Definition ct2_metric (m : mat22) : R := ct2_Jacobian m ^ 2.
(* inverse_Jacobian_matrix 122-134 *)
Definition ct2_inverse (m : mat22) : mat22 :=
  match m with
  | ((j00, j01), (j10, j11)) =>
      let r := 1 / (j00 * j11 - j01 * j10) in
      ((r * j11, - r * j01), (- r * j10, r * j00))
  end.
(* inverse_Jacobian 136-140 *)
Definition ct2_inverse_Jacobian (iJ : mat22) : R :=
  match iJ with ((i00, i01), (i10, i11)) => i00 * i11 - i01 * i10 end.
(* metric_matrix 142-162 *)
Definition ct2_metric_matrix (m : mat22) : mat22 :=
  match m with
  | ((j00, j01), (j10, j11)) =>
      let g01 := j00 * j01 + j10 * j11 in
      ((j00 * j00 + j10 * j10, g01), (g01, j01 * j01 + j11 * j11))
  end.
(* inverse_metric_matrix 164-182 *)
Definition ct2_inverse_metric_matrix (iJ : mat22) : mat22 :=
  match iJ with
  | ((i00, i01), (i10, i11)) =>
      let g01 := i00 * i10 + i01 * i11 in
      ((i00 * i00 + i01 * i01, g01), (g01, i10 * i10 + i11 * i11))
  end.

(* ---------- _0_form/base/discretize/scalar/standard.py 21-38 ---------- *)
Definition mesh2 (n0 n1 : list R) : list (R * R) := flat_map (fun y => map (fun x => (x, y)) n0) n1.
Definition disc2_0 (n0 n1 : list R) (F : emap2) (f : fun2) : list R :=
  map (fun q => at_map2 f F (fst q) (snd q)) (mesh2 n0 n1).

(* ---------- _1_form/base/main.py 56-78 ---------- *)
(* cell_nodes[i] *)
Definition cell_nodes (n q : list R) : list R :=
  concat (colop Rplus (map (fun s => map (fun x => 1 / 2 * s * (x + 1)) q) (diffs n)) (init n)).
(* quad_xi, quad_eta, ES *)
Definition prep2 := (list (list R) * list (list R) * list R)%type.
Definition prep2_x (n0 n1 : list R) (p0 p1 : nat) (q : list R) : prep2 :=
  (reshapeF (tile (cell_nodes n0 q) (p1 + 1)) (length q) (p0 * (p1 + 1)),
   rows (concat (map (fun x => repeat x p0) n1)) (length q),
   tile (diffs n0) (p1 + 1)).
Definition prep2_y (n0 n1 : list R) (p0 p1 : nat) (q : list R) : prep2 :=
  (rows (tile n0 p1) (length q),
   rep (reshapeF (cell_nodes n1 q) (length q) p1) (p0 + 1),
   rep (diffs n1) (p0 + 1)).
Definition part2 (P : prep2) (w : list R) (h : fun2) : list R :=
  match P with
  | (xi, eta, es) =>
      einsum1 (map2 (map2 h) xi eta) w (map (fun s => s * (1 / 2)) es)
  end.
(* _1_form/inner/discretize/vector/standard.py 60-113 *)
Definition inner_x (F : emap2) (J : ejac2) (v : emap2) (orth : bool) (x y : R) : R :=
  match J x y with ((j00, _), (j10, _)) =>
    if orth then j00 * at_map2 (fst v) F x y else j00 * at_map2 (fst v) F x y + j10 * at_map2 (snd v) F x y end.
Definition inner_y (F : emap2) (J : ejac2) (v : emap2) (orth : bool) (x y : R) : R :=
  match J x y with ((_, j01), (_, j11)) =>
    if orth then j11 * at_map2 (snd v) F x y else j01 * at_map2 (fst v) F x y + j11 * at_map2 (snd v) F x y end.
Definition disc2_inner (n0 n1 : list R) (p0 p1 : nat) (r0 r1 : rule) (F : emap2) (J : ejac2) (orth : bool) (v : emap2) : list R :=
  part2 (prep2_x n0 n1 p0 p1 (fst r0)) (snd r0) (inner_x F J v orth) ++
  part2 (prep2_y n0 n1 p0 p1 (fst r1)) (snd r1) (inner_y F J v orth).
(* _1_form/outer/discretize/vector/standard.py 62-115 *)
Definition outer_x (F : emap2) (J : ejac2) (v : emap2) (orth : bool) (x y : R) : R :=
  match J x y with ((j00, _), (j10, _)) =>
    if orth then j00 * at_map2 (snd v) F x y else j00 * at_map2 (snd v) F x y - j10 * at_map2 (fst v) F x y end.
Definition outer_y (F : emap2) (J : ejac2) (v : emap2) (orth : bool) (x y : R) : R :=
  match J x y with ((_, j01), (_, j11)) =>
    if orth then j11 * at_map2 (fst v) F x y else - j01 * at_map2 (snd v) F x y + j11 * at_map2 (fst v) F x y end.
Definition disc2_outer (n0 n1 : list R) (p0 p1 : nat) (r0 r1 : rule) (F : emap2) (J : ejac2) (orth : bool) (v : emap2) : list R :=
  part2 (prep2_y n0 n1 p0 p1 (fst r1)) (snd r1) (outer_y F J v orth) ++
  part2 (prep2_x n0 n1 p0 p1 (fst r0)) (snd r0) (outer_x F J v orth).

(* ---------- _2_form/base/discretize/scalar/standard.py 27-74 ---------- *)
Definition patch2 := (list (list (R * R)) * R)%type.
Definition loops2 (J I : nat) : list (nat * nat * nat) := flat_map (fun j => map (fun i => (i, j, 0%nat)) (seq 0 I)) (seq 0 J).
Definition patches2 (n0 n1 : list R) (p0 p1 : nat) (q0 q1 : list R) : nat -> patch2 :=
  fill ([], 0) (loops2 p1 p0) (fun t => match t with (i, j, _) => (i + j * p0)%nat end)
    (fun t => match t with (i, j, _) =>
       (map (fun a => map (fun b => (stretch n0 i a, stretch n1 j b)) q1) q0,
        (nd n0 (i + 1) - nd n0 i) * (nd n1 (j + 1) - nd n1 j) * (1 / 4)) end).
Definition einsum2d (h : fun2) (P : patch2) (w0 w1 : list R) : R :=
  lsum (map2 (fun row a => lsum (map2 (fun q b => h (fst q) (snd q) * a * b) row w1)) (fst P) w0) * snd P.
Definition disc2_2 (n0 n1 : list R) (p0 p1 : nat) (r0 r1 : rule) (F : emap2) (J : ejac2) (f : fun2) : list R :=
  map (fun m => einsum2d (fun x y => at_map2 f F x y * ct2_Jacobian (J x y))
                         (patches2 n0 n1 p0 p1 (fst r0) (fst r1) m) (snd r0) (snd r1)) (seq 0 (p0 * p1)).
