(* The unit square of two triangles. *)
From Coq Require Import List Arith ZArith.
From Verif Require Import TriModel TriSpec TriExample VtkModel VtkSpec.
Import ListNotations.

Definition sq_quadratic : list Z * list nat * list (list Z) := match quadratic sq_cells sq_sides with Some x => x | None => ([], [], []) end.
Definition sq_tq (p : nat) : tqdata := match tq_data p sq_cells sq_sides with Some x => x | None => mkTQ [] [] [] [] end.
