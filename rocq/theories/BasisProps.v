(** Properties of the 1d basis functions, over every ordered field. *)
From mathcomp Require Import all_ssreflect all_algebra.
From Verif Require Import BasisModel BasisSpec BasisProofs2.
Set Implicit Arguments.
Unset Strict Implicit.
Unset Printing Implicit Defensive.
Import GRing.Theory Num.Theory.
Local Open Scope ring_scope.

(** C52: exactly the strictly increasing nodes from -1 to 1 are accepted *)
Theorem C52_nodes : forall (F : realFieldType) (xs ys : seq F), poly1d xs = Some ys <-> ys = xs /\ mesh_nodes xs.
Proof. exact poly1dP. Qed.
Print Assumptions C52_nodes.
(** every basis function is a polynomial of degree at most p, one at its node and zero at the others *)
Theorem C52_kronecker : forall (F : realFieldType) (xs ys : seq F) (i j : nat), poly1d xs = Some ys -> (i < size ys)%N -> (j < size ys)%N -> lagrange ys i (nth 0 ys j) = (i == j)%:R.
Proof. exact lagrange_kronecker. Qed.
Print Assumptions C52_kronecker.
Theorem C52_polynomial : forall (F : realFieldType) (xs ys : seq F) (i : nat), poly1d xs = Some ys -> (i < size ys)%N ->
  exists q : {poly F}, (size q <= size ys)%N /\ forall x, q.[x] = lagrange ys i x.
Proof. exact lagrange_poly. Qed.
Print Assumptions C52_polynomial.
Theorem C52_unity : forall (F : realFieldType) (xs ys : seq F) x, poly1d xs = Some ys -> \sum_(i < size ys) lagrange ys i x = 1.
Proof. exact lagrange_unity. Qed.
Print Assumptions C52_unity.
(** every polynomial of degree at most p is interpolated exactly *)
Theorem C52_interpolates : forall (F : realFieldType) (xs ys : seq F) (q : {poly F}) x, poly1d xs = Some ys -> (size q <= size ys)%N ->
  q.[x] = \sum_(i < size ys) q.[nth 0 ys i] * lagrange ys i x.
Proof. exact lagrange_interpolates. Qed.
Print Assumptions C52_interpolates.

(** C53: _derivative_poly_ gives the derivatives of the basis functions *)
Theorem C53_derivative : forall (F : realFieldType) (xs ys : seq F) (q : {poly F}) x, poly1d xs = Some ys -> (size q <= size ys)%N ->
  (q^`()).[x] = \sum_(j < size ys) q.[nth 0 ys j] * derivative_poly ys j x.
Proof. exact derivative_ok. Qed.
Print Assumptions C53_derivative.
(** the derivative of the sum of u_i l_i is the sum of (u_(i+1) - u_i) e_i *)
Theorem C53_commutes : forall (F : realFieldType) (xs ys : seq F) (u : nat -> F), poly1d xs = Some ys ->
  exists q : {poly F}, (forall y, q.[y] = \sum_(i < size ys) u i * lagrange ys i y) /\ forall x, (q^`()).[x] = \sum_(i < (size ys).-1) (u i.+1 - u i) * edge ys i x.
Proof. exact edge_commutes. Qed.
Print Assumptions C53_commutes.
(** every edge function is a polynomial of degree below p with integral one over its interval and zero over the others *)
Theorem C53_histopolation : forall (F : realFieldType) (xs ys : seq F) (i : nat), poly1d xs = Some ys -> (i.+1 < size ys)%N ->
  exists e : {poly F}, [/\ (size e < size ys)%N, forall x, e.[x] = edge ys i x & forall m, (m.+1 < size ys)%N -> integral e (nth 0 ys m) (nth 0 ys m.+1) = (i == m)%:R].
Proof. exact edge_integral. Qed.
Print Assumptions C53_histopolation.

(** nodes -1, 0, 1/2, 1 of the rational numbers *)
Definition four : seq rat := [:: -1; 0; 1%:Q / 2%:Q; 1].
Example C52_ex : [&& poly1d four == Some four, poly1d [:: -1; 0; 0; 1 : rat] == None, poly1d [:: 0; 1 : rat] == None, poly1d [:: (-1) : rat] == None &
  [seq lagrange four i (1%:Q / 4%:Q) | i <- iota 0 4] == [:: - (1%:Q / 64%:Q); 15%:Q / 32%:Q; 5%:Q / 8%:Q; - (5%:Q / 64%:Q)]].
Proof. by vm_compute. Qed.
Example C53_ex : [seq edge four i (1%:Q / 4%:Q) | i <- iota 0 3] == [:: - (1%:Q / 48%:Q); 101%:Q / 48%:Q; - (1%:Q / 16%:Q)].
Proof. by vm_compute. Qed.
