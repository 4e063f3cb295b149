(** Proofs about BasisModel: which nodes are accepted; the theorems for accepted nodes. *)
From mathcomp Require Import all_ssreflect all_algebra.
From Verif Require Import BasisModel BasisSpec BasisProofs.
Set Implicit Arguments.
Unset Strict Implicit.
Unset Printing Implicit Defensive.
Import GRing.Theory Num.Theory Order.TTheory.
Local Open Scope ring_scope.

Section Nodes.
Variable F : realFieldType.
Implicit Types (xs : seq F).

Lemma diff_sorted xs : all (fun d => 0 < d) (np_diff xs) = sorted <%R xs.
Proof.
  case: xs => [|x xs] //=. rewrite /np_diff /=. elim: xs x => [|y ys IH] x //=. by rewrite subr_gt0 IH.
Qed.
Lemma max_last y (ys : seq F) : path <%R y ys -> foldl Num.max y ys = last y ys.
Proof. elim: ys y => [|z ys IH] y //= /andP [H P]. by rewrite (max_idPr (ltW H)) IH. Qed.
Lemma min_head y (ys : seq F) : all (fun z => y <= z) ys -> foldl Num.min y ys = y.
Proof. elim: ys => [|z ys IH] //= /andP [H P]. by rewrite (min_idPl H) IH. Qed.
Theorem poly1dP xs ys : poly1d xs = Some ys <-> ys = xs /\ mesh_nodes xs.
Proof.
  rewrite /poly1d diff_sorted. split.
  - case: ifP => // /and3P [S /eqP M /eqP N] [<-]. split=> //. case: xs S M N => [|x xs] //= P [M] [N]. rewrite (max_last P) in M. have P' := P. rewrite (path_sortedE lt_trans) in P'. case/andP: P' => A S.
    rewrite min_head in N; last by apply: sub_all A => z /ltW. split.
    + clear S A. case: xs P M => [|z zs] //= _ M. exfalso. move: M. rewrite N => /eqP. by rewrite eq_sym -subr_eq0 opprK -mulr2n pnatr_eq0.
    + move=> i j /andP [Hij Hj]. have := sorted_ltn_nth lt_trans 0 (P : sorted <%R (x :: xs)). apply=> //. by rewrite inE (ltn_trans Hij Hj).
    + by rewrite /= N.
    + by rewrite /= -M (last_nth 0).
  - case=> -> [Sz I H0 H1]. have S : sorted <%R xs. { apply/(sortedP 0) => i Hi. apply: I. by rewrite ltnSn Hi. }
    rewrite S /=. case: xs Sz I H0 H1 S => [|x xs] //= Sz I H0 H1 P. rewrite (max_last P) (last_nth 0) H1 eqxx /=. rewrite (path_sortedE lt_trans) in P. case/andP: P => A _.
    rewrite min_head; first by rewrite H0 eqxx. by apply: sub_all A => z; apply: ltW.
Qed.
Lemma nodes_uniq xs : mesh_nodes xs -> uniq xs.
Proof.
  case=> _ I _ _. apply: (sorted_uniq lt_trans ltxx). apply/(sortedP 0) => i Hi. apply: I. by rewrite ltnSn Hi.
Qed.

Theorem lagrange_kronecker xs ys i j : poly1d xs = Some ys -> (i < size ys)%N -> (j < size ys)%N -> lagrange ys i (nth 0 ys j) = (i == j)%:R.
Proof. move/poly1dP=> [-> M] Hi Hj. by rewrite -lagPE (kronecker (nodes_uniq M)). Qed.
Theorem lagrange_interpolates xs ys (q : {poly F}) x : poly1d xs = Some ys -> (size q <= size ys)%N -> q.[x] = \sum_(i < size ys) q.[nth 0 ys i] * lagrange ys i x.
Proof.
  move/poly1dP=> [-> M] S. rewrite [in LHS](interpolate (nodes_uniq M) S) horner_sum -(big_mkord predT (fun i => q.[nth 0 xs i] * lagrange xs i x)) /index_iota subn0.
  apply: eq_bigr => i _. by rewrite hornerZ lagPE.
Qed.
Theorem lagrange_unity xs ys x : poly1d xs = Some ys -> \sum_(i < size ys) lagrange ys i x = 1.
Proof.
  move=> E. have M := E. move/poly1dP: M => [Ey [Sz _ _ _]]. have := @lagrange_interpolates xs ys 1 x E. rewrite size_poly1 Ey (ltnW Sz) hornerE => /(_ isT) ->. apply: eq_bigr => i _. by rewrite hornerE mul1r.
Qed.
(** the polynomials of the basis: degree below the number of nodes *)
Theorem lagrange_poly xs ys i : poly1d xs = Some ys -> (i < size ys)%N -> exists q : {poly F}, (size q <= size ys)%N /\ forall x, q.[x] = lagrange ys i x.
Proof. move/poly1dP=> [-> M] Hi. exists (lagP xs i). split; [exact: size_lagP|by move=> x; rewrite lagPE]. Qed.
Theorem derivative_ok xs ys (q : {poly F}) x : poly1d xs = Some ys -> (size q <= size ys)%N -> (q^`()).[x] = \sum_(j < size ys) q.[nth 0 ys j] * derivative_poly ys j x.
Proof. move/poly1dP=> [-> M] S. rewrite (derivative_interpolate (nodes_uniq M) x S) -(big_mkord predT (fun j => q.[nth 0 xs j] * derivative_poly xs j x)) /index_iota subn0. by []. Qed.
Theorem edge_commutes xs ys (u : nat -> F) : poly1d xs = Some ys ->
  exists q : {poly F}, (forall y, q.[y] = \sum_(i < size ys) u i * lagrange ys i y) /\ forall x, (q^`()).[x] = \sum_(i < (size ys).-1) (u i.+1 - u i) * edge ys i x.
Proof.
  move/poly1dP=> [-> M]. have [Sz _ _ _] := M. exact: (combination (nodes_uniq M) u Sz).
Qed.
Theorem edge_integral xs ys i : poly1d xs = Some ys -> (i.+1 < size ys)%N ->
  exists e : {poly F}, [/\ (size e < size ys)%N, forall x, e.[x] = edge ys i x & forall m, (m.+1 < size ys)%N -> integral e (nth 0 ys m) (nth 0 ys m.+1) = (i == m)%:R].
Proof.
  move/poly1dP=> [-> M] Hi. have [e [S E]] := edge_is_poly (nodes_uniq M) Hi. exists e. split=> // m Hm. exact: (histopolation (nodes_uniq M) Hi Hm E).
Qed.
End Nodes.
