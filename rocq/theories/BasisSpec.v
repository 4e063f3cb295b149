(** Specification of 1d basis functions. *)
From mathcomp Require Import all_ssreflect all_algebra.
Set Implicit Arguments.
Unset Strict Implicit.
Unset Printing Implicit Defensive.
Import GRing.Theory Num.Theory.
Local Open Scope ring_scope.

Section Spec.
Variable F : realFieldType.
(** the integral of a polynomial from a to b: of x^k it is (b^(k+1) - a^(k+1)) / (k+1) *)
Definition integral (q : {poly F}) (a b : F) : F := \sum_(k < size q) q`_k * ((b ^+ k.+1 - a ^+ k.+1) / k.+1%:R).
(** strictly increasing nodes from -1 to 1 *)
Definition mesh_nodes (xs : seq F) : Prop :=
  [/\ (1 < size xs)%N, forall i j, (i < j < size xs)%N -> nth 0 xs i < nth 0 xs j, nth 0 xs 0 = -1 & nth 0 xs (size xs).-1 = 1].
End Spec.
