(* Words for types of 3D regions: boxes, parts of the unit cube. *)
From Coq Require Import Reals.
From Verif Require Import TfiModel TfiSpec.
Local Open Scope R_scope.

(* the first corner is below the second in each direction *)
Definition below (lo hi : point) : Prop := forall c, get lo c < get hi c.
Definition sizes (lo hi : point) : R * R * R := (get hi cX - get lo cX, get hi cY - get lo cY, get hi cZ - get lo cZ).
(* a box in the unit cube, with a positive size in each direction *)
Definition sub_cube (i j l : R * R) : Prop :=
  (0 <= fst i /\ fst i < snd i /\ snd i <= 1) /\ (0 <= fst j /\ fst j < snd j /\ snd j <= 1) /\ (0 <= fst l /\ fst l < snd l /\ snd l <= 1).
Definition at_part (i : R * R) (u : R) : R := (1 - u) * fst i + u * snd i.
(* a map of the unit cube on a box of it, as a map of the unit cube *)
Definition part (m : coord -> R -> R -> R -> R) (i j l : R * R) (c : coord) (u v w : R) : R :=
  m c (at_part i u) (at_part j v) (at_part l w).
