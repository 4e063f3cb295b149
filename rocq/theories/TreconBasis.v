(** The nodal and edge functions of symmetric nodes are symmetric. *)
From Coq Require Import Reals Lra.
From mathcomp Require Import all_ssreflect all_algebra.
From Verif Require Import BasisModel BasisSpec BasisProofs BasisProofs2 RField DiscSpec ReconModel ReconSpec ReconBasis ReconBasisEx TdiscSpec TreconSpec TreconProofs6.
Set Implicit Arguments.
Unset Strict Implicit.
Unset Printing Implicit Defensive.
Import GRing.Theory Num.Theory.
Local Open Scope ring_scope.

Section Nodes.
Variables xs ys : seq R.
Hypothesis H : @poly1d RF xs = Some ys.
Notation p := (size ys).-1.
Hypothesis Sy : sym_nodes p ys.
Lemma node_opp k : (k <= p)%N -> node (ys : seq RF) (p - k) = - node (ys : seq RF) k.
Proof. move=> /leP Hk. case: Sy => _ [_ E]. have := E k Hk. by rewrite !nth_eq /node => ->. Qed.
Lemma lag_mirror i : (i <= p)%N -> lagP (ys : seq RF) (p - i) \Po (- 'X) = lagP (ys : seq RF) i.
Proof.
  move=> Hi. have U := ys_uniq H. have S := size_S H.
  have L : forall k, (k <= p)%N -> (k < size ys)%N by move=> k Hk; rewrite -S ltnS.
  have Hq : (size (lagP (ys : seq RF) (p - i) \Po (- 'X)) <= size ys)%N.
  { rewrite size_comp_poly2; last by rewrite size_opp size_polyX. apply: size_lagP. exact/L/leq_subr. }
  rewrite (interpolate U Hq) (eq_big_seq (fun k => (k == i)%:R *: lagP (ys : seq RF) k)).
  - rewrite (bigD1_seq i) ?mem_iota ?iota_uniq ?add0n ?L //= eqxx scale1r big1 ?addr0 // => k /negbTE ->. by rewrite scale0r.
  - move=> k. rewrite mem_iota add0n /= => Hk. have Hk' : (k <= p)%N by rewrite -ltnS S.
    congr (_ *: _). rewrite horner_comp hornerN hornerX -node_opp // kronecker ?L ?leq_subr //. congr (_%:R).
    congr nat_of_bool. apply/eqP/eqP => [E|-> //]. by rewrite -(subKn Hk') -(subKn Hi) E.
Qed.
Theorem nodes_mirrored : mirrored (poly_of ys).
Proof.
  apply: (@nodes_mirror ys (poly_of ys) (nodes_basis H)) => i x /leP Hi /=.
  rewrite -!lagPE. have -> : Ropp x = - (x : RF) by []. rewrite -(lag_mirror Hi) horner_comp hornerN hornerX. by [].
Qed.
End Nodes.
Example ex_symmetric : sym_nodes 2 three_nodes.
Proof. repeat split. move=> k Hk. case: k Hk => [|[|[|k]]] Hk /=; try lra. by move/leP: Hk. Qed.
