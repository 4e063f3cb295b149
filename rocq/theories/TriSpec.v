(* What the triangular meshes and their forms are supposed to be; the types
   are taken from the model, and the last definitions name its results. *)
From Coq Require Import List Arith ZArith Bool Reals.
From Verif Require RingSum.
From Verif Require Import TriModel.
Import ListNotations.

(* ---------- the cells of one element ---------- *)
(* A triangle is a square whose edge "j = 0" is collapsed to one node. *)
Inductive tnode := Sing | Nd (i j : nat).
Inductive tedge := Dx (i j : nat) | Dy (i j : nat).
Definition node_at (i j : nat) : tnode := match j with O => Sing | S _ => Nd i j end.
Definition node_ok (p : nat) (n : tnode) : Prop := match n with Sing => True | Nd i j => i <= p /\ 1 <= j <= p end.
Definition edge_ok (p : nat) (e : tedge) : Prop :=
  match e with Dx i j => i < p /\ 1 <= j <= p | Dy i j => i <= p /\ j < p end.
Definition start (e : tedge) : tnode := match e with Dx i j | Dy i j => node_at i j end.
Definition stop (e : tedge) : tnode := match e with Dx i j => node_at (i + 1) j | Dy i j => node_at i (j + 1) end.
(* f numbers the cells satisfying ok with 0, 1, ..., n - 1 *)
Definition numbers {A} (ok : A -> Prop) (f : A -> Z) (n : nat) : Prop :=
  (forall a, ok a -> (0 <= f a < Z.of_nat n)%Z) /\
  (forall a b, ok a -> ok b -> f a = f b -> a = b) /\
  (forall k, k < n -> exists a, ok a /\ f a = Z.of_nat k).

Definition tnode_eqb (a b : tnode) : bool :=
  match a, b with Sing, Sing => true | Nd i j, Nd i' j' => (i =? i') && (j =? j') | _, _ => false end.
Definition tedge_eqb (a b : tedge) : bool :=
  match a, b with
  | Dx i j, Dx i' j' => (i =? i') && (j =? j') | Dy i j, Dy i' j' => (i =? i') && (j =? j') | _, _ => false
  end.
Definition dirac (b : bool) : Z := if b then 1%Z else 0%Z.
(* inner: the difference along the edge; outer: the flux of the rotated
   gradient (d/dy, -d/dx), through dy along x and through dx along y *)
Definition d_node (o : orient) (e : tedge) (n : tnode) : Z :=
  (match o, e with Outer, Dx _ _ => -1 | _, _ => 1 end *
   (dirac (tnode_eqb n (stop e)) - dirac (tnode_eqb n (start e))))%Z.
(* outer: what flows out of the face (i, j); inner: the circulation around it,
   from (i, j) along Dy (i, j) to ... taken with the edges Dx backwards *)
Definition d_edge (o : orient) (i j : nat) (e : tedge) : Z :=
  (match o with Outer => 1 | Inner => -1 end * (dirac (tedge_eqb e (Dx i (j + 1))) - dirac (tedge_eqb e (Dx i j))) +
   (dirac (tedge_eqb e (Dy (i + 1) j)) - dirac (tedge_eqb e (Dy i j))))%Z.

(* ---------- meshes ---------- *)
(* twice the signed area, positive for counterclockwise points *)
Definition area2 (a b c : point) : R :=
  ((fst b - fst a) * (snd c - snd a) - (snd b - snd a) * (fst c - fst a))%R.
Definition pt (pts : list point) (v : nat) : point := nth v pts (0%R, 0%R).
Definition ccw (pts : list point) (t : tri) : Prop :=
  match t with (a, b, c) => (0 < area2 (pt pts a) (pt pts b) (pt pts c))%R end.
Definition inside (pts : list point) (t : tri) (q : point) : Prop :=
  match t with (a, b, c) =>
    (0 < area2 (pt pts a) (pt pts b) q)%R /\ (0 < area2 (pt pts b) (pt pts c) q)%R /\ (0 < area2 (pt pts c) (pt pts a) q)%R
  end.
Definition corner (t : tri) (k : nat) : nat := match t, k with (a, _, _), 0 => a | (_, b, _), 1 => b | (_, _, c), _ => c end.
(* edge 0 runs from corner 0 to 1, edge 1 from 0 to 2, edge 2 from 2 to 1 *)
Definition ends (t : tri) (m : nat) : nat * nat :=
  match m with 0 => (corner t 0, corner t 1) | 1 => (corner t 0, corner t 2) | _ => (corner t 2, corner t 1) end.
Definition swap (e : nat * nat) : nat * nat := (snd e, fst e).
Definition cl (cells : list tri) (c : nat) : tri := nth c cells (0, 0, 0).
(* edge m of cell c and edge n of cell j are the same line; same: also the same direction *)
Definition same_line (cells : list tri) (c m j n : nat) : Prop :=
  ends (cl cells c) m = ends (cl cells j) n \/ ends (cl cells c) m = swap (ends (cl cells j) n).
Definition distinct (t : tri) : Prop := corner t 0 <> corner t 1 /\ corner t 0 <> corner t 2 /\ corner t 1 <> corner t 2.
(* three distinct corners; a line lies in at most two cells *)
Definition manifold (cells : list tri) : Prop :=
  (forall c, c < length cells -> distinct (cl cells c)) /\
  (forall c m j n j' n', c < length cells -> j < length cells -> j' < length cells -> m < 3 -> n < 3 -> n' < 3 ->
     j <> c -> j' <> c -> same_line cells c m j n -> same_line cells c m j' n' -> j = j').
(* the marks tell the neighbours: the other cell, its edge, and whether both
   edges run in the same direction *)
Definition describes (cells : list tri) (M : smap) : Prop :=
  length M = length cells /\
  forall c m, c < length cells -> m < 3 ->
    match side_at M c m with
    | SB _ => forall j n, j < length cells -> n < 3 -> j <> c -> ~ same_line cells c m j n
    | SI j s n => j < length cells /\ n < 3 /\ j <> c /\
                  ends (cl cells c) m = if s then ends (cl cells j) n else swap (ends (cl cells j) n)
    end.

(* ---------- where the dofs are ---------- *)
(* a vertex; the k-th of the p segments' inner nodes of the line from a to b, a < b; inside cell c *)
Inductive loc0 := LV (v : nat) | LE (a b k : nat) | LI (c i j : nat).
Definition on_line (p a b k : nat) : loc0 := if a <? b then LE a b k else LE b a (p - k).
Definition where0 (p : nat) (cells : list tri) (c i j : nat) : loc0 :=
  let t := cl cells c in
  if j =? 0 then LV (corner t 0)
  else if j =? p then
    (if i =? 0 then LV (corner t 2) else if i =? p then LV (corner t 1) else on_line p (corner t 2) (corner t 1) i)
  else if i =? 0 then on_line p (corner t 0) (corner t 2) j
  else if i =? p then on_line p (corner t 0) (corner t 1) j
  else LI c i j.
(* the k-th of the p segments of the line from a to b, a < b; inside cell c *)
Inductive loc1 := SE (a b k : nat) | SIn (c : nat) (e : tedge).
Definition on_seg (p a b k : nat) : loc1 := if a <? b then SE a b k else SE b a (p - 1 - k).
Definition where1 (p : nat) (cells : list tri) (c : nat) (e : tedge) : loc1 :=
  let t := cl cells c in
  match e with
  | Dy i j => if i =? 0 then on_seg p (corner t 0) (corner t 2) j
              else if i =? p then on_seg p (corner t 0) (corner t 1) j
              else SIn c e
  | Dx i j => if j =? p then on_seg p (corner t 2) (corner t 1) i else SIn c e
  end.
(* the edges of an element, as lists of local edges *)
Definition on_edge (p m : nat) (e : tedge) : Prop :=
  match m, e with
  | 0, Dy i _ => i = p
  | 1, Dy i _ => i = 0
  | 2, Dx _ j => j = p
  | _, _ => False
  end.
(* no two cells have the same three corners *)
Definition simple (cells : list tri) : Prop :=
  forall c j, c < length cells -> j < length cells -> c <> j ->
    ~ (forall k, k < 3 -> exists k', k' < 3 /\ corner (cl cells c) k = corner (cl cells j) k').
(* a mesh: counterclockwise triangles that do not overlap *)
Definition mesh_ok (pts : list point) (cells : list tri) : Prop :=
  (forall c, c < length cells -> ccw pts (cl cells c)) /\
  (forall c j q, c < length cells -> j < length cells -> c <> j -> inside pts (cl cells c) q -> ~ inside pts (cl cells j) q).
(* the same for the marks before the boundaries are named *)
Definition describes_marks (cells : list tri) (M : emap) : Prop :=
  length M = length cells /\
  forall c, c < length cells -> length (nth c M []) = 3 /\ forall m, m < 3 ->
    match nth m (nth c M []) None with
    | None => forall j n, j < length cells -> n < 3 -> j <> c -> ~ same_line cells c m j n
    | Some (j, s, n) => j < length cells /\ n < 3 /\ j <> c /\
                        ends (cl cells c) m = if s then ends (cl cells j) n else swap (ends (cl cells j) n)
    end.
(* the boundary conditions holding at both ends of edge m of cell c *)
Definition holds_on (pts : list point) (t : tri) (m : nat) (cond : point -> bool) : Prop :=
  cond (pt pts (fst (ends t m))) = true /\ cond (pt pts (snd (ends t m))) = true.
Definition one_condition (conds : list (nat * (point -> bool))) (pts : list point) (t : tri) (m b : nat) : Prop :=
  exists l1 l2 cond, conds = l1 ++ (b, cond) :: l2 /\ holds_on pts t m cond /\
    forall b' cond', In (b', cond') (l1 ++ l2) -> ~ holds_on pts t m cond'.
Definition no_overlap (pts : list point) (cells : list tri) : Prop :=
  forall c j q, c < length cells -> j < length cells -> c <> j -> inside pts (cl cells c) q -> ~ inside pts (cl cells j) q.
(* the local numbers of nodes and edges *)
Definition dofn (p : nat) (n : tnode) : Z := match n with Sing => tln0 p 0 0 | Nd i j => tln0 p i j end.
Definition dofe (o : orient) (p : nat) (e : tedge) : Z := match e with Dx i j => tln_dx o p i j | Dy i j => tln_dy o p i j end.
(* the numbers of the local dofs of cell c *)
Definition num0 (p : nat) (A : list arr2) (c k : nat) : Z := znth (gathering0 p (nth c A ones2)) k.
Definition num1 (o : orient) (p : nat) (A : list (arr2 * arr2)) (c k : nat) : Z := znth (gathering1 o p (nth c A (ones2, ones2))) k.
(* what local dof k contributes to all the faces of cell c together *)
Definition colsum (o : orient) (p : nat) (M : smap) (c k : nat) : Z := @RingSum.bsum RingSum.ZR nat (seq 0 (tnb2 p)) (fun r => incidence1 o p M c r k).
(* three points on a line *)
Definition flat (pts : list point) (t : tri) : Prop := area2 (pt pts (corner t 0)) (pt pts (corner t 1)) (pt pts (corner t 2)) = 0%R.
