(** C102: the polynomials of the space are the functions the reconstruction needs. *)
From Coq Require Import Reals.
From mathcomp Require Import all_ssreflect all_algebra.
From Verif Require Import BasisModel RField ReconModel ReconSpec ReconBasis ReconBasisEx.

(** nodal functions are one at their node and zero at the others; edge functions
    give the derivative of the sums of nodal functions *)
Theorem C102_basis : forall xs ys : seq R, @poly1d RF xs = Some ys -> basis_of ys (poly_of ys).
Proof. exact nodes_basis. Qed.
Print Assumptions C102_basis.
Example C102_basis_ex : basis_of three_nodes (poly_of three_nodes).
Proof. exact (nodes_basis ex_nodes). Qed.

(** as many different points as nodes tell the sums of nodal, or edge, functions apart *)
Theorem C102_separates : forall xs ys : seq R, @poly1d RF xs = Some ys ->
  forall l : seq R, List.NoDup l -> (size ys <= size l)%N -> separates l (poly_of ys).
Proof. exact nodes_separate. Qed.
Print Assumptions C102_separates.
Example C102_separates_ex : separates (fst simpson) (poly_of three_nodes).
Proof. exact (nodes_separate ex_nodes ex_distinct isT). Qed.

(** a rule exact for the powers below the degree integrates the derivatives of
    the sums of nodal functions *)
Theorem C102_exact : forall xs ys : seq R, @poly1d RF xs = Some ys ->
  forall r, exact_degree r (size ys).-1 -> exact_for ys r (poly_of ys).
Proof. exact nodes_exact. Qed.
Print Assumptions C102_exact.
Example C102_exact_ex : exact_for three_nodes simpson (poly_of three_nodes).
Proof. exact (nodes_exact ex_nodes ex_simpson). Qed.
