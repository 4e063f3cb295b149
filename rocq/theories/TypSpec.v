(* Sides of a region as vectors. *)
From Coq Require Import Reals.
From Verif Require Import TriModel.
Local Open Scope R_scope.

Definition vec (p q : point) : R * R := (fst q - fst p, snd q - snd p).
Definition times2 (k : R) (v : R * R) : R * R := (k * fst v, k * snd v).
Definition cross (v w : R * R) : R := fst v * snd w - snd v * fst w.
Definition inner (v w : R * R) : R := fst v * fst w + snd v * snd w.
Definition norm (v : R * R) : R := sqrt (inner v v).
Definition parallelogram (UL DL UR DR : point) : Prop := vec UL DL = vec UR DR.
(* the diagonal from UL to DR separates DL from UR *)
Definition split_by_diagonal (UL DL UR DR : point) : Prop := 0 < cross (vec UL DL) (vec UL DR) /\ 0 < cross (vec UL DR) (vec UL UR).
