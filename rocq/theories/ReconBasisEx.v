(** The nodes -1, 0, 1 and Simpson's rule. *)
From Coq Require Import Reals Lra.
From mathcomp Require Import all_ssreflect all_algebra.
From Verif Require Import BasisModel BasisSpec BasisProofs BasisProofs2 RField DiscSpec ReconModel ReconSpec ReconBasis.
Set Implicit Arguments.
Unset Strict Implicit.
Unset Printing Implicit Defensive.

Definition three_nodes : seq R := [:: Ropp R1; R0; R1].
Definition simpson : seq R * seq R := (three_nodes, [:: Rdiv 1 3; Rdiv 4 3; Rdiv 1 3]).
Example ex_nodes : @poly1d RF three_nodes = Some three_nodes.
Proof.
  apply/poly1dP. split=> //. split.
  - by [].
  - move=> [|[|[|i]]] [|[|[|j]]] // L; try (by case/andP: L); try (by exfalso; move: L; rewrite /= ltnNge); try (apply/RltbP; rewrite /three_nodes /=; lra).
  - by [].
  - by [].
Qed.
Example ex_distinct : List.NoDup three_nodes.
Proof. repeat constructor; cbn; intuition lra. Qed.
Example ex_simpson : exact_degree simpson 2.
Proof.
  move=> k /ltP. case: k => [|[|k]] // _; rewrite /rsum /=; lra.
Qed.
