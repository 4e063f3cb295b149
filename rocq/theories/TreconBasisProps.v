(** C121: the bases of symmetric nodes have the symmetry the theorems on traces ask for. *)
From Coq Require Import Reals.
From mathcomp Require Import all_ssreflect all_algebra.
From Verif Require Import BasisModel RField ReconModel ReconSpec ReconBasis ReconBasisEx TdiscSpec TreconSpec TreconBasis.

Theorem C121_basis : forall xs ys : seq R, @poly1d RF xs = Some ys -> sym_nodes (size ys).-1 ys -> mirrored (poly_of ys).
Proof. exact nodes_mirrored. Qed.
Print Assumptions C121_basis.
Example C121_basis_ex : mirrored (poly_of three_nodes).
Proof. exact (nodes_mirrored ex_nodes ex_symmetric). Qed.
