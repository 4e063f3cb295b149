(** The nodal and edge functions of BasisModel over the reals are the functions
    the reconstruction needs. *)
From Coq Require Import Reals.
From mathcomp Require Import all_ssreflect all_algebra.
From Verif Require Import BasisModel BasisSpec BasisProofs BasisProofs2 RField DiscSpec ReconModel ReconSpec.
Set Implicit Arguments.
Unset Strict Implicit.
Unset Printing Implicit Defensive.
Import GRing.Theory Num.Theory.
Local Open Scope ring_scope.
Notation RF := R_realFieldType.

(** polynomials.py: the degree is the number of nodes minus one *)
Definition poly_of (xs : seq R) : Poly1 := mkPoly1 (size xs).-1 (@lagrange RF xs) (@edge RF xs).

Lemma seq_iota a n : List.seq a n = iota a n.
Proof. by elim: n a => [|n IH] a //=; rewrite IH. Qed.
Lemma nth_eq (xs : seq R) i : List.nth i xs R0 = nth (0 : RF) xs i.
Proof. by elim: xs i => [|x xs IH] [|i] //=. Qed.
Lemma length_eq (T : Type) (l : seq T) : length l = size l.
Proof. by []. Qed.
Lemma rsum_big (T : Type) (l : seq T) (f : T -> RF) : rsum l f = \sum_(i <- l) f i.
Proof. elim: l => [|a l IH]; first by rewrite big_nil. by rewrite big_cons -IH. Qed.
Lemma rsum_ord n (f : nat -> RF) : rsum (List.seq 0 n) f = \sum_(i < n) f i.
Proof. by rewrite rsum_big seq_iota -(big_mkord predT) /index_iota subn0. Qed.

Lemma lim_eq f x l l' : l = l' -> derivable_pt_lim f x l -> derivable_pt_lim f x l'.
Proof. by move=> ->. Qed.
Lemma lim_fun f h x l : (forall y, f y = h y) -> derivable_pt_lim f x l -> derivable_pt_lim h x l.
Proof. move=> E D eps He. case: (D eps He) => del Hd. exists del => k Hk Hk'. rewrite -!E. exact: Hd. Qed.
Lemma horner_lim (q : {poly RF}) x : derivable_pt_lim (fun y => q.[y]) x (q^`()).[x].
Proof.
  elim/poly_ind: q => [|q c IH].
  - rewrite deriv0 horner0. apply: (@lim_fun (fun _ => 0)); first by move=> y; rewrite horner0. exact: derivable_pt_lim_const.
  - apply: (@lim_fun (fun y => Rplus (Rmult q.[y] y) c)); first by move=> y; rewrite hornerD hornerC hornerMX.
    apply: (@lim_eq _ _ (Rplus (Rplus (Rmult (q^`()).[x] x) (Rmult q.[x] 1)) 0)).
    + rewrite derivD derivC addr0 derivM derivX mulr1 hornerD hornerMX. by rewrite Rplus_0_r Rmult_1_r.
    + apply: (derivable_pt_lim_plus (fun y => Rmult q.[y] y) (fun _ => c)); last exact: derivable_pt_lim_const.
      apply: (derivable_pt_lim_mult (fun y => q.[y]) id); [exact: IH|exact: derivable_pt_lim_id].
Qed.
Section Nodes.
Variables xs ys : seq R.
Hypothesis H : @poly1d RF xs = Some ys.
Lemma nodes_size : (1 < size ys)%N.
Proof. by move/poly1dP: H => [-> [S _ _ _]]. Qed.
Lemma size_S : (size ys).-1.+1 = size ys.
Proof. by rewrite prednK // ltnW // nodes_size. Qed.
Lemma eqb_eq i j : Nat.eqb i j = (i == j).
Proof. by apply/Nat.eqb_spec/eqP. Qed.
Theorem nodes_basis : basis_of ys (poly_of ys).
Proof.
  split; last split.
  - by rewrite length_eq /= size_S.
  - move=> i j /= /leP Hi /leP Hj. rewrite nth_eq eqb_eq. rewrite -ltnS size_S in Hi. rewrite -ltnS size_S in Hj.
    rewrite (lagrange_kronecker H Hi Hj). by case: (i == j).
  - move=> u x. case: (edge_commutes u H) => q [Hq Hq']. have -> : S (pdeg (poly_of ys)) = size ys by rewrite /= size_S.
    apply: (@lim_fun (fun y => q.[y])).
    + move=> y. by rewrite Hq rsum_ord.
    + apply: (@lim_eq _ _ (q^`()).[x]); last exact: horner_lim. by rewrite Hq' rsum_ord.
Qed.

(** a polynomial of degree at most p with p + 1 roots *)
Lemma many_roots (q : {poly RF}) (l : seq R) : List.NoDup l -> (size q <= size l)%N -> (forall y, List.In y l -> q.[y] = 0) -> q = 0.
Proof.
  move=> Nd Sz Rt0. apply/eqP/negPn/negP => NZ.
  have In : forall y : RF, y \in l -> List.In y l.
  { elim: (l) => [//|a l' IH] y. rewrite inE => /orP [/eqP ->|/IH]; [by left|by right]. }
  have In' : forall (l' : seq R) (y : RF), List.In y l' -> y \in (l' : seq RF).
  { elim => [//|a l' IH] y. rewrite inE => -[->|/IH ->]; [by rewrite eqxx|by rewrite orbT]. }
  have U : uniq (l : seq RF).
  { clear Sz Rt0 In. elim: l Nd => [//|a l IH] Nd /=. inversion Nd as [|? ? A B]; subst. rewrite IH // andbT. apply/negP => I. apply: A.
    elim: (l) I => [//|b l' IH'] . rewrite inE => /orP [/eqP ->|/IH']; [by left|by right]. }
  have Rt : all (root q) (l : seq RF). { apply/allP => y Hy. rewrite /root Rt0 //. exact: In. }
  have := max_poly_roots NZ Rt U. by rewrite ltnNge Sz.
Qed.
Definition comb (u : nat -> RF) : {poly RF} := \sum_(i <- iota 0 (size ys)) u i *: lagP (ys : seq RF) i.
Lemma ys_uniq : uniq (ys : seq RF).
Proof. by move/poly1dP: H => [-> M]; exact: nodes_uniq. Qed.
Theorem nodes_separate (l : seq R) : List.NoDup l -> (size ys <= size l)%N -> separates l (poly_of ys).
Proof.
  move=> Nd Sz. have N := nodes_size. have Us := ys_uniq.
  have Cy : forall u y, (comb u).[y] = rsum (List.seq 0 (size ys)) (fun i => u i * lagrange (ys : seq RF) i y).
  { move=> u y. rewrite rsum_big seq_iota /comb horner_sum. apply: eq_bigr => i _. by rewrite hornerZ lagPE. }
  have Cs : forall u, (size (comb u) <= size ys)%N by move=> u; exact: size_sum.
  have Cn : forall u j, (j < size ys)%N -> (comb u).[node (ys : seq RF) j] = u j.
  { move=> u j Hj. rewrite /comb horner_sum (eq_big_seq (fun i => u i * (i == j)%:R)); first exact: sum_delta.
    move=> i. rewrite mem_iota /= => Hi. by rewrite hornerZ kronecker. }
  split => u Ru i Hi.
  - have -> : u i = (comb u).[node (ys : seq RF) i]. { rewrite Cn //. rewrite -size_S ltnS. exact/leP. }
    rewrite (_ : comb u = 0) ?horner0 //. apply: (@many_roots _ l) => //; first exact: (leq_trans (Cs u) Sz). move=> y Hy.
    rewrite Cy. have := Ru y Hy. by rewrite (_ : S _ = size ys) //= size_S.
  - pose v (k : nat) : RF := \sum_(j <- iota 0 k) u j.
    have vS : forall k, v k.+1 - v k = u k. { move=> k. rewrite /v -addn1 iotaD big_cat /= add0n big_seq1. by rewrite addrC addKr. }
    have Hi' : (i.+1 < size ys)%N by rewrite -size_S ltnS; exact/ltP.
    have D0 : (comb v)^`() = 0.
    { apply: (@many_roots _ l) => //.
      - case: (eqVneq (comb v) 0) => [->|NZ]; first by rewrite deriv0 size_poly0. exact: (leq_trans (ltnW (lt_size_deriv NZ)) (leq_trans (Cs v) Sz)).
      - move=> y Hy. rewrite (derivative_edges Us _ (Cs v) N). apply: etrans (Ru y Hy). rewrite /= rsum_big seq_iota /index_iota subn0. apply: eq_big_seq => k.
        rewrite mem_iota add0n /= => Hk. have Hk' : (k.+1 < size ys)%N by rewrite -size_S ltnS. by rewrite !Cn ?vS // ltnW. }
    rewrite -vS -(Cn v i.+1) // -(Cn v i) ?(ltnW Hi') // -integral_deriv D0 /integral size_poly0. by rewrite big_ord0.
Qed.

(** a rule exact for the powers below p is exact for the derivatives *)
Lemma pow_exp (x : RF) k : pow x k = x ^+ k.
Proof. elim: k => [|k IH]; first by rewrite expr0. by rewrite exprS /= IH. Qed.
Lemma INR_nat k : INR k = k%:R :> RF.
Proof. elim: k => [//|k IH]. by rewrite S_INR IH mulrSr. Qed.
Lemma Rdiv_eq (a b : RF) : b != 0 -> Rdiv a b = a / b.
Proof. move=> Hb. rewrite /Rdiv. congr (_ * _). by rewrite /GRing.inv /= /Rinvx Hb. Qed.
Lemma rule_poly r d (P : {poly RF}) : exact_degree r d -> (size P <= d.+1)%N ->
  \sum_(xw <- List.combine r.1 r.2) (P^`()).[xw.1] * xw.2 = P.[1] - P.[-1].
Proof.
  move=> E Sz. rewrite -integral_deriv /integral.
  have Sd : (size P^`() <= d)%N. { case: (eqVneq P 0) => [->|NZ]; first by rewrite deriv0 size_poly0. by rewrite -ltnS; exact: (leq_trans (lt_size_deriv NZ) Sz). }
  transitivity (\sum_(k < size P^`()) (P^`())`_k * \sum_(xw <- List.combine r.1 r.2) xw.1 ^+ k * xw.2).
  - under [RHS]eq_bigr => k _ do rewrite big_distrr /=. rewrite exchange_big /=. apply: eq_bigr => xw _. rewrite horner_coef big_distrl /=.
    apply: eq_bigr => k _. by rewrite mulrA.
  - apply: eq_bigr => k _. congr (_ * _). have Hk : lt k d by apply/ltP; exact: (leq_trans (ltn_ord k) Sd).
    have := E k Hk. rewrite rsum_big INR_nat Rdiv_eq ?pnatr_eq0 // => Ek. rewrite expr1n.
    transitivity (\sum_(xw <- List.combine r.1 r.2) Rmult (pow xw.1 k) xw.2); first by apply: eq_bigr => xw _; rewrite pow_exp.
    rewrite Ek. congr (_ / _). rewrite pow_exp. by [].
Qed.
Theorem nodes_exact r : exact_degree r (size ys).-1 -> exact_for ys r (poly_of ys).
Proof.
  move=> E u h' Hh i /ltP Hi. rewrite length_eq in Hi. pose q := comb u. have Us := ys_uniq.
  have Sq : (size q <= size ys)%N by exact: size_sum.
  have Qy : forall y, q.[y] = rsum (List.seq 0 (S (pdeg (poly_of ys)))) (fun i => Rmult (u i) (node_fn (poly_of ys) i y)).
  { move=> y. have -> : S (pdeg (poly_of ys)) = size ys by rewrite /= size_S.
    rewrite rsum_big seq_iota /q /comb horner_sum. apply: eq_bigr => k _. by rewrite hornerZ lagPE. }
  have Hq : forall y, h' y = (q^`()).[y].
  { move=> y. apply: (uniqueness_limite (fun y => q.[y]) y); last exact: horner_lim. apply: lim_fun (Hh y) => z. by rewrite Qy. }
  rewrite -!Qy !nth_eq. set a : RF := nth 0 ys i. set b : RF := nth 0 ys i.+1.
  pose L : {poly RF} := ((b - a) / 2%:R) *: 'X + ((a + b) / 2%:R)%:P.
  have T : (2%:R : RF) != 0 by rewrite pnatr_eq0.
  have L1 : L.[1] = b. { rewrite /L hornerD hornerZ hornerX hornerC mulr1 -mulrDl addrA subrK. by rewrite -mulr2n -mulr_natr mulfK. }
  have L2 : L.[-1] = a. { rewrite /L hornerD hornerZ hornerX hornerC mulrN1 -mulNr opprB -mulrDl [a + b]addrC addrA subrK. by rewrite -mulr2n -mulr_natr mulfK. }
  have Sp : (size (q \Po L) <= (size ys).-1.+1)%N.
  { rewrite size_S. apply: (leq_trans (size_comp_poly_leq _ _)). have SL : ((size L).-1 <= 1)%N.
    { rewrite -subn1 leq_subLR. apply: (leq_trans (size_add _ _)). rewrite geq_max size_polyC. apply/andP; split; last by case: (_ != 0).
      apply: (leq_trans (size_scale_leq _ _)). by rewrite size_polyX. }
    apply: (@leq_trans ((size q).-1 * 1).+1); first by rewrite ltnS leq_mul2l SL orbT. rewrite muln1.
    case: (size q) Sq => [|m] //= _. exact: (ltnW nodes_size). }
  have Rq := rule_poly E Sp. rewrite !horner_comp L1 L2 in Rq. rewrite -[RHS]Rq.
  rewrite rsum_big /factor_rule /= big_map. apply: eq_bigr => xw _ /=. rewrite Hq !nth_eq -/a -/b.
  rewrite deriv_comp hornerM horner_comp. have -> : L^`() = ((b - a) / 2%:R)%:P by rewrite /L derivD derivC addr0 derivZ derivX alg_polyC.
  rewrite hornerC. rewrite -mulrA [X in _ = _ * X]mulrC.
  have R2 : forall x : RF, Rdiv x 2 = x / 2%:R. { move=> x. rewrite -Rdiv_eq //. }
  congr (_ * _).
  - congr (_.[_]). rewrite /L hornerD hornerZ hornerX hornerC -!R2. rewrite /GRing.mul /GRing.add /GRing.opp /=. field.
  - rewrite R2. by [].
Qed.
End Nodes.
