(* The functions on the reference square given by a cochain of a triangle, by
   nodes and edges rather than by arrays. *)
From Coq Require Import Reals List ZArith.
From Verif Require Import SpaceSpec DiscSpec Disc2Spec ReconModel ReconSpec TriModel TriSpec TdiscSpec.
Import ListNotations.
Open Scope R_scope.

(* sums of products of nodal (false) and edge (true) functions of the two axes *)
Definition tsum2 (P : Poly1) (a b : bool) (W : nat -> nat -> R) (x y : R) : R :=
  rsum (seq 0 (size (pdeg P) b)) (fun j => rsum (seq 0 (size (pdeg P) a)) (fun i => W i j * (factor_fn P (a, i) x * factor_fn P (b, j) y))).
(* the value of a cochain at a node; all nodes of the collapsed side are the vertex *)
Definition node_val (p : nat) (c : list R) (i j : nat) : R := nth (Z.to_nat (dofn p (node_at i j))) c 0.
(* at an edge, in the direction of the edge in the cell: the signs of the
   transition of cell e; nothing on the collapsed side *)
Definition edge_val (o : orient) (p : nat) (M : smap) (e : nat) (c : list R) (k : tedge) : R :=
  match k with
  | Dx _ O => 0
  | _ => IZR (transition o p M e (Z.to_nat (dofe o p k))) * nth (Z.to_nat (dofe o p k)) c 0
  end.
Definition face_val (p : nat) (c : list R) (i j : nat) : R := nth (Z.to_nat (tln2 p i j)) c 0.
Definition that0 (P : Poly1) (c : list R) : R -> R -> R := tsum2 P false false (node_val (pdeg P) c).
(* d: the axis, true for the second *)
Definition that1 (o : orient) (P : Poly1) (M : smap) (e : nat) (c : list R) (d : bool) : R -> R -> R :=
  if d then tsum2 P false true (fun i j => edge_val o (pdeg P) M e c (Dy i j))
  else tsum2 P true false (fun i j => edge_val o (pdeg P) M e c (Dx i j)).
Definition that2 (P : Poly1) (c : list R) : R -> R -> R := tsum2 P true true (face_val (pdeg P) c).

(* u is the pull back of the vector w: for inner forms the components along the
   axes, for outer forms the flux through them, to the increasing other axis *)
Definition tpulls1 (o : orient) (J : (R * R) * (R * R)) (w : plane) (u : bool -> R) : Prop :=
  forall d : bool, match o with
            | Inner => dot2 (mcol J d) w
            | Outer => IZR (if d then 1 else -1) * cross2 w (mcol J d)
            end = u d.
Definition det2 (J : (R * R) * (R * R)) : R := cross2 (mcol J false) (mcol J true).
Definition tpulls2 (J : (R * R) * (R * R)) (v : R) (u : R) : Prop := v * det2 J = u.

(* the array l of values at the points of the grid, the first axis fastest, has
   values related by V *)
Definition array2 {A} (xi et : list R) (l : list A) (V : R -> R -> A -> Prop) : Prop :=
  length l = (length xi * length et)%nat /\
  forall i j x y, nth_error xi i = Some x -> nth_error et j = Some y ->
    exists v, nth_error l (i + j * length xi) = Some v /\ V x y v.
Definition on_grid2 (xi et : list R) (P : R -> R -> Prop) : Prop := forall x y, In x xi -> In y et -> P x y.
Definition components2 (l : list (R * R)) (a b : list R) : Prop := a = map fst l /\ b = map snd l.

(* the integral over the square by two rules *)
Definition tquad (r0 r1 : list R * list R) (h : R -> R -> R) : R :=
  rsum (combine (fst r0) (snd r0)) (fun a => rsum (combine (fst r1) (snd r1)) (fun b => h (fst a) (fst b) * (snd a * snd b))).
Definition weights_pos (r : list R * list R) : Prop := forall w, In w (snd r) -> 0 < w.
Definition points_open (r : list R * list R) : Prop := forall x, In x (fst r) -> in_open x.
(* the square without the collapsed side *)
Definition off_vertex (P : R -> R -> Prop) : Prop := forall x y, in_ref x -> -1 < y <= 1 -> P x y.
Definition inside_square (P : R -> R -> Prop) : Prop := forall x y, in_open x -> in_open y -> P x y.
(* nodes that increase from -1 to 1 *)
Definition nodes_ok (n : list R) : Prop :=
  nth 0 n 0 = -1 /\ (forall x, In x n -> in_ref x) /\ (forall j, (0 < j < length n)%nat -> -1 < nth j n 0).

(* ---------- across the sides of cells ---------- *)
(* the point of side m of the reference square *)
Definition side_pt (m : nat) (t : R) : R * R := match m with O => (1, t) | S O => (-1, t) | _ => (t, 1) end.
Definition side_vec (pts : list point) (cells : list tri) (c m : nat) : plane :=
  let (a, b) := ends (cl cells c) m in (fst (pt pts b) - fst (pt pts a), snd (pt pts b) - snd (pt pts a)).
(* the local cochain of cell c of values X of the numbered dofs *)
Definition local0 (p : nat) (A : list arr2) (X : list R) (c : nat) : list R := map (fun k => nth (Z.to_nat (num0 p A c k)) X 0) (seq 0 (tnb0 p)).
Definition local1 (o : orient) (p : nat) (A : list (arr2 * arr2)) (X : list R) (c : nat) : list R :=
  map (fun k => nth (Z.to_nat (num1 o p A c k)) X 0) (seq 0 (tnb1 p)).
(* basis functions symmetric about 0 *)
Definition mirrored (P : Poly1) : Prop :=
  (forall i x, (i <= pdeg P)%nat -> node_fn P (pdeg P - i) (- x) = node_fn P i x) /\
  (forall i x, (i < pdeg P)%nat -> edge_fn P (pdeg P - 1 - i) (- x) = edge_fn P i x).
(* the component of w along, or through, a line of direction d *)
Definition trace (o : orient) (w d : plane) : R := match o with Inner => dot2 w d | Outer => cross2 w d end.
