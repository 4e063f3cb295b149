(* The cells on a side of an element, the functions given by values or fluxes
   there, and integrals over the side; independent of the arrays in the code. *)
From Coq Require Import Reals List ZArith.
From Verif Require Import TfiModel TfiSpec CtModel CtSpec RingSum SpaceSpec DiscSpec ReconModel ReconSpec TrfModel.
Import ListNotations.
Open Scope R_scope.

(* the side as axis and end *)
Definition axis_no (c : coord) : nat := match c with cX => 0 | cY => 1 | cZ => 2 end%nat.
Definition on_the (s : tside) : nat * bool := (axis_no (across s), upper s).
Definition end_pt (s : tside) : R := if upper s then 1 else -1.
Definition all_sides : list tside := [tN; tS; tW; tE; tB; tF].
(* the nodes or faces of the element on the side, in the order of the element *)
Definition side_cells (p : list nat) (ts : list ctype) (s : tside) : list cell := filter (on_side p (on_the s)) (cells p ts).
Definition types_of (k : tdeg) : list ctype := match k with D0 => nodes3 | D2 => faces3 end.
(* the nodes of the axes go from -1 to 1 *)
Definition ends_ok (g : Grid) (p0 p1 p2 : nat) : Prop :=
  (nth 0 (gx g) 0 = -1 /\ nth p0 (gx g) 0 = 1) /\ (nth 0 (gy g) 0 = -1 /\ nth p1 (gy g) 0 = 1) /\
  (nth 0 (gz g) 0 = -1 /\ nth p2 (gz g) 0 = 1).
Definition lengths_ok (g : Grid) (p0 p1 p2 : nat) : Prop :=
  length (gx g) = S p0 /\ length (gy g) = S p1 /\ length (gz g) = S p2.
(* the points of the side *)
Definition on_face (s : tside) (P : R -> R -> R -> Prop) : Prop :=
  forall x y z, in_ref x -> in_ref y -> in_ref z -> TfiModel.get (x, y, z) (across s) = end_pt s -> P x y z.
(* normal to the side, towards increasing coordinate; its length is the ratio
   of the areas *)
Definition area_vec (J : mat3) (s : tside) : vec := cross (col J (next (across s))) (col J (next (next (across s)))).
Definition norm (v : vec) : R := sqrt (dot v v).
Definition zero_vec : vec := (0, 0, 0).
(* the component of the vector w along n *)
Definition component (n w : vec) : R := dot n w / norm n.
(* the integral of a scalar over a face of a side *)
Definition int_area (g : Grid) F (J : R -> R -> R -> mat3) (s : tside) f : cell -> R :=
  cell_quad g (fun x y z => through f F x y z * norm (area_vec (J x y z) s)).
(* the values of the component of a vector normal to the side *)
Definition int_normal (g : Grid) F (J : R -> R -> R -> mat3) (s : tside) v : cell -> R :=
  cell_quad g (fun x y z => component (area_vec (J x y z) s) (through (value v) F x y z)).

(* the part of a cochain of the element that belongs to the side *)
Definition restrict_to (p : list nat) (ts : list ctype) (s : tside) (c : list R) : list R :=
  map snd (filter (fun q => on_side p (on_the s) (fst q)) (combine (cells p ts) c)).
(* the parts of all sides, with a sign for each side *)
Definition signed_traces (sg : nat * bool -> Z) (p : list nat) (ts : list ctype) (c : list R) : list R :=
  flat_map (fun s => map (Rmult (IZR (sg (on_the s)))) (restrict_to p ts s c)) all_sides.
(* the function of a node or face of a side, on the side *)
Definition side_fn (sp : Space3) (s : tside) (c : cell) (x y z : R) : R :=
  match c with
  | [a; b; d] =>
      match across s with
      | cX => factor_fn (s1 sp) b y * factor_fn (s2 sp) d z
      | cY => factor_fn (s0 sp) a x * factor_fn (s2 sp) d z
      | cZ => factor_fn (s0 sp) a x * factor_fn (s1 sp) b y
      end
  | _ => 0
  end.
Definition side_hat (k : tdeg) (sp : Space3) (s : tside) (c : list R) (x y z : R) : R :=
  rsum (combine (side_cells (degrees sp) (types_of k) s) c) (fun q => snd q * side_fn sp s (fst q) x y z).
(* the grid of the side, and the rules with one point across *)
Definition on_axis3 {A} (s : tside) (e : A) (x y z : A) : A * A * A :=
  match across s with cX => (e, y, z) | cY => (x, e, z) | cZ => (x, y, e) end.
Definition side_mesh (s : tside) (m : Mesh3) : Mesh3 :=
  let '(a, b, c) := on_axis3 s [end_pt s] (mx m) (my m) (mz m) in mkMesh3 a b c.
Definition side_rule (s : tside) (q : Rule3) : Rule3 :=
  let '(a, b, c) := on_axis3 s ([end_pt s], [1]) (q0 q) (q1 q) (q2 q) in mkRule3 a b c.
Definition nface (k : tdeg) (sp : Space3) (s : tside) : nat := length (side_cells (degrees sp) (types_of k) s).
(* the maps of two elements agree where side s of the first meets the opposite
   side of the second *)
Definition meets (s : tside) (F F' : coord -> R -> R -> R -> R) : Prop :=
  forall c x y z, TfiModel.get (x, y, z) (across s) = end_pt s ->
    F c x y z = match across s with cX => F' c (- x) y z | cY => F' c x (- y) z | cZ => F' c x y (- z) end.
