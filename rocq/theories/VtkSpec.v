(* Where the points of vtk cells are. *)
From Coq Require Import List Arith ZArith.
From Verif Require Import TriModel TriSpec VtkModel.
Import ListNotations.

(* points of the quadratic triangle of vtk: the corners, then the middles of the
   lines from corner 0 to 1, from 1 to 2 and from 2 to 0 *)
Definition middle (a b : nat) : loc0 := LE (Nat.min a b) (Nat.max a b) 1.
Definition q_point (t : tri) (q : nat) : loc0 :=
  match q with
  | 0 | 1 | 2 => LV (corner t q)
  | 3 => middle (corner t 0) (corner t 1)
  | 4 => middle (corner t 1) (corner t 2)
  | _ => middle (corner t 2) (corner t 0)
  end.
(* the points from offset to offset *)
Definition part {A} (l : list A) (from upto : nat) : list A := firstn (upto - from) (skipn from l).
(* offsets of cell k *)
Definition starts (os : list nat) (k : nat) : nat := match k with 0 => 0 | S k' => nth k' os 0 end.
(* the squares and triangles of the grid of an element, column by column; the
   first column is at the singular vertex *)
Definition grid_cell (p b : nat) : list (nat * nat) :=
  let i := Nat.modulo b p in let j := Nat.div b p in
  if j =? 0 then [(0, 0); (i + 1, 1); (i, 1)] else [(i, j); (i + 1, j); (i + 1, j + 1); (i, j + 1)].
Definition requests_tq (cells : list tri) (M : smap) (ps : list nat) : option (nat * tqdata) :=
  fold_left (fun c p => snd (tq_cached cells M c p)) ps None.
