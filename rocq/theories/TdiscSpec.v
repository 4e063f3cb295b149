(* Triangles, the cells of a triangle as integration domains, symmetric rules. *)
From Coq Require Import Reals List ZArith.
From Verif Require Import SpaceSpec DiscSpec Disc2Spec TriModel TriSpec.
Import ListNotations.
Open Scope R_scope.

(* the point a fraction t of the way from a to b *)
Definition between (a b : point) (t : R) : point := (fst a + t * (fst b - fst a), snd a + t * (snd b - snd a)).
Definition image (F : (R -> R -> R) * (R -> R -> R)) (r s : R) : point := (fst F r s, snd F r s).
(* inside a counterclockwise triangle: left of each of its sides *)
Definition in_tri (a b c q : point) : Prop := 0 < area2 a b q /\ 0 < area2 b c q /\ 0 < area2 c a q.
Definition in_open (x : R) : Prop := -1 < x < 1.

(* where a node is in the reference square; the first coordinate of the
   collapsed node does not matter *)
Definition node_pos (n : list R) (k : tnode) : R * R :=
  match k with Sing => (nth 0 n 0, nth 0 n 0) | Nd i j => (nth i n 0, nth j n 0) end.
Definition edge_cell (e : tedge) : cell :=
  match e with Dx i j => [(true, i); (false, j)] | Dy i j => [(false, i); (true, j)] end.
Definition face_cell (i j : nat) : cell := [(true, i); (true, j)].
(* circulation along an edge or flux through it, by the rule *)
Definition int_edge (o : orient) (g : Grid2) F J v (e : tedge) : R :=
  match o with Inner => int2_inner g F J v (edge_cell e) | Outer => int2_outer g F J v (edge_cell e) end.

(* nodes from -1 to 1 symmetric about 0, rules symmetric about 0 *)
Definition sym_nodes (p : nat) (n : list R) : Prop :=
  length n = S p /\ nth 0 n 0 = -1 /\ forall k, (k <= p)%nat -> nth (p - k) n 0 = - nth k n 0.
Definition sym_rule (r : list R * list R) : Prop :=
  combine (fst r) (snd r) = rev (map (fun xw => (- fst xw, snd xw)) (combine (fst r) (snd r))).
(* the corners of cell c *)
Definition corner_pt (pts : list point) (cells : list tri) (c k : nat) : point := pt pts (corner (cl cells c) k).
