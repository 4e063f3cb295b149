(* The unit square cut along its diagonal; the second triangle is given clockwise. *)
From Coq Require Import List Arith ZArith Bool Reals Lra Lia.
From Verif Require Import TriModel TriSpec.
Import ListNotations.
Definition sq_pts : list point := [(0, 0); (1, 0); (1, 1); (0, 1)]%R.
Definition sq_given : list tri := [(0, 1, 2); (2, 0, 3)].
Definition sq_cells : list tri := [(0, 1, 2); (2, 3, 0)].
Definition sq_conds : list (nat * (point -> bool)) := [(5, fun _ => true)].
Definition sq_sides : smap := [[SB 5; SI 1 false 1; SB 5]; [SB 5; SI 0 false 1; SB 5]].
Lemma sq_oriented : oriented_cells sq_pts sq_given = Some sq_cells.
Proof.
  unfold oriented_cells, sq_given, sq_pts, oriented, orientation. cbn [map nth_error fst snd].
  repeat match goal with |- context [Rlt_dec ?a ?b] => destruct (Rlt_dec a b); try lra end. reflexivity.
Qed.
Lemma sq_mesh : make_mesh sq_conds sq_pts sq_given = Some (sq_cells, sq_sides).
Proof. unfold make_mesh. rewrite sq_oriented. vm_compute. reflexivity. Qed.
Lemma sq_apart : no_overlap sq_pts sq_cells.
Proof.
  intros c j [x y] Hc Hj N. cbn in Hc, Hj.
  destruct c as [|[|c]], j as [|[|j]]; try lia; cbn; unfold area2, sq_pts; cbn; intros (H1 & H2 & H3) (K1 & K2 & K3); lra.
Qed.
Definition sq0 := match numbering0 2 sq_cells sq_sides with Some (A, n) => (map (gathering0 2) A, n) | None => ([], 0) end.
Definition sq1 o := match numbering1 o 2 sq_sides with Some (A, n) => (map (gathering1 o 2) A, n) | None => ([], 0) end.
