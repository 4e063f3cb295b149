(** Proofs about BasisModel. *)
From mathcomp Require Import all_ssreflect all_algebra.
From Verif Require Import BasisModel BasisSpec.
Set Implicit Arguments.
Unset Strict Implicit.
Unset Printing Implicit Defensive.
Import GRing.Theory Num.Theory Order.TTheory.
Local Open Scope ring_scope.

Arguments node : simpl never.
Section Basis.
Variable F : realFieldType.

Lemma foldl_prod (f : nat -> F) (P : pred nat) s a : foldl (fun b j => if P j then b * f j else b) a s = a * \prod_(j <- s | P j) f j.
Proof. elim: s a => [|j s IH] a /=; first by rewrite big_nil mulr1. by rewrite IH big_cons; case: (P j); rewrite ?mulrA. Qed.
Lemma foldl_mul (f : nat -> F) s a : foldl (fun c j => c * f j) a s = a * \prod_(j <- s) f j.
Proof. elim: s a => [|j s IH] a /=; first by rewrite big_nil mulr1. by rewrite IH big_cons mulrA. Qed.
Lemma foldl_sum (f : nat -> F) s a : foldl (fun c j => c + f j) a s = a + \sum_(j <- s) f j.
Proof. elim: s a => [|j s IH] a /=; first by rewrite big_nil addr0. by rewrite IH big_cons addrA. Qed.
Lemma foldl_sub (f : nat -> F) s a : foldl (fun c j => c - f j) a s = a - \sum_(j <- s) f j.
Proof. elim: s a => [|j s IH] a /=; first by rewrite big_nil subr0. by rewrite IH big_cons opprD addrA. Qed.

Variable xs : seq F.
Hypothesis U : uniq xs.
Notation n := (size xs).
Notation xn := (node xs).

Lemma node_inj i j : (i < n)%N -> (j < n)%N -> xn i = xn j -> i = j.
Proof. move=> Hi Hj /eqP; rewrite /node nth_uniq //; by move/eqP. Qed.
Lemma node_neq i j : (i < n)%N -> (j < n)%N -> i != j -> xn i - xn j != 0.
Proof. move=> Hi Hj H; rewrite subr_eq0; apply/eqP => E; move/eqP: H; apply; exact: node_inj. Qed.

(** the basis function as a polynomial *)
Definition lagP (i : nat) : {poly F} := \prod_(j <- iota 0 n | i != j) ((xn i - xn j)^-1 *: ('X - (xn j)%:P)).
Lemma lagPE i x : (lagP i).[x] = lagrange xs i x.
Proof. rewrite /lagP /lagrange foldl_prod mul1r horner_prod; apply: eq_bigr => j _; by rewrite hornerZ hornerXsubC mulrC. Qed.
Lemma size_prod1 i (s : seq nat) : (size (\prod_(j <- s | i != j) ((xn i - xn j)^-1 *: ('X - (xn j)%:P)))%R <= (count (fun j => i != j) s).+1)%N.
Proof.
  elim: s => [|j s IH]; first by rewrite big_nil size_poly1. rewrite big_cons /=; case: (i != j) => //=. apply: (leq_trans (size_mul_leq _ _)). have H1 := size_scale_leq ((xn i - xn j)^-1) ('X - (xn j)%:P). rewrite size_XsubC in H1.
  have H := leq_add H1 IH. rewrite add2n in H. rewrite add1n. by case: (_ + _)%N H.
Qed.
Lemma size_lagP i : (i < n)%N -> (size (lagP i) <= n)%N.
Proof.
  move=> Hi; rewrite /lagP. apply: (leq_trans (size_prod1 _ _)). have C := count_predC (fun j => i != j) (iota 0 n). rewrite size_iota in C. rewrite -[X in (_ <= X)%N]C addnC.
  suff E : (0 < count (predC (fun j => i != j)) (iota 0 n))%N by rewrite -add1n leq_add2r. rewrite -has_count; apply/hasP; exists i; first by rewrite mem_iota. by rewrite /= eqxx.
Qed.
Lemma kronecker i j : (i < n)%N -> (j < n)%N -> (lagP i).[xn j] = (i == j)%:R.
Proof.
  move=> Hi Hj; rewrite /lagP horner_prod. case: (eqVneq i j) => [<-|H].
  - rewrite big_seq_cond big1 // => k /andP [Hk Hik]. rewrite hornerZ hornerXsubC mulVf //. apply: node_neq => //. by rewrite mem_iota in Hk.
  - apply/eqP; rewrite prodf_seq_eq0; apply/hasP; exists j; first by rewrite mem_iota. by rewrite H hornerZ hornerXsubC subrr mulr0 eqxx.
Qed.
Lemma poly_eq_nodes (p q : {poly F}) : (size p <= n)%N -> (size q <= n)%N -> (forall i, (i < n)%N -> p.[xn i] = q.[xn i]) -> p = q.
Proof.
  move=> Sp Sq H. apply/eqP; rewrite -subr_eq0; apply/negPn/negP => NZ. have R : all (root (p - q)) xs.
  { apply/(all_nthP 0) => i Hi. by rewrite /root hornerD hornerN (H i Hi) subrr. }
  have M := max_poly_roots NZ R U. have S : (size (p - q)%R <= n)%N by apply: (leq_trans (size_add _ _)); rewrite size_opp geq_max Sp Sq. have := leq_trans M S. by rewrite ltnn.
Qed.
Lemma size_sum (c : nat -> F) : (size (\sum_(i <- iota 0 n) c i *: lagP i)%R <= n)%N.
Proof.
  rewrite big_seq. elim/big_ind: _ => [|p q Hp Hq|i Hi]; first by rewrite size_poly0.
  - apply: (leq_trans (size_add _ _)). by rewrite geq_max Hp Hq.
  - apply: (leq_trans (size_scale_leq _ _)). apply: size_lagP. by rewrite mem_iota in Hi.
Qed.
Lemma sum_delta (c : nat -> F) j : (j < n)%N -> \sum_(i <- iota 0 n) c i * (i == j)%:R = c j.
Proof.
  move=> Hj. rewrite (bigD1_seq j) ?mem_iota ?iota_uniq //= eqxx mulr1 big1 ?addr0 // => i Hi. by rewrite (negbTE Hi) mulr0.
Qed.
Lemma interpolate (q : {poly F}) : (size q <= n)%N -> q = \sum_(i <- iota 0 n) q.[xn i] *: lagP i.
Proof.
  move=> S; apply: poly_eq_nodes => // [|j Hj]; first exact: size_sum. rewrite horner_sum (eq_big_seq (fun i => q.[xn i] * (i == j)%:R)); last by move=> i; rewrite mem_iota /= => Hi; rewrite hornerZ kronecker. by rewrite (sum_delta (fun i => q.[xn i])).
Qed.
(** partition of unity *)
Lemma unity : (0 < n)%N -> \sum_(i <- iota 0 n) lagP i = 1.
Proof.
  move=> H. have E := @interpolate 1. rewrite size_poly1 in E. rewrite [RHS](E H). apply: eq_bigr => i _. by rewrite hornerE scale1r.
Qed.

(** * derivatives at the nodes *)
Definition W : {poly F} := \prod_(j <- iota 0 n) ('X - (xn j)%:P).
Lemma c_iE k : c_i xs k = \prod_(j <- iota 0 n | k != j) (xn k - xn j).
Proof. rewrite /c_i foldl_mul mul1r [RHS]big_mkcond /=. apply: eq_bigr => j _. rewrite /xi_xj. by case: eqVneq. Qed.
Lemma c_neq0 k : (k < n)%N -> c_i xs k != 0.
Proof. move=> Hk. rewrite c_iE big_seq_cond prodf_seq_neq0. apply/allP => j Hj. apply/implyP => /andP [H1 H2]. apply: node_neq => //. by rewrite mem_iota in H1. Qed.
Lemma W_lag k : (k < n)%N -> W = ('X - (xn k)%:P) * (c_i xs k *: lagP k).
Proof.
  move=> Hk. rewrite /W (bigD1_seq k) ?mem_iota ?iota_uniq //=. congr (_ * _). rewrite /lagP c_iE. rewrite scaler_prod scalerA -big_split /=.
  rewrite (eq_bigl (fun j => k != j)); last by move=> j; rewrite eq_sym. have -> : \prod_(j <- iota 0 n | k != j) ((xn k - xn j) / (xn k - xn j)) = 1; last by rewrite scale1r.
  rewrite big_seq_cond big1 // => j /andP [H1 H2]. rewrite mem_iota in H1. by rewrite divff // node_neq.
Qed.
Lemma deriv_W k a : (k < n)%N -> (W^`()).[a] = c_i xs k * (lagP k).[a] + (a - xn k) * (c_i xs k * ((lagP k)^`()).[a]).
Proof. move=> Hk. rewrite (W_lag Hk) derivM derivXsubC derivZ mul1r hornerD hornerZ hornerM hornerXsubC hornerZ. by []. Qed.
Lemma deriv_W_node k : (k < n)%N -> (W^`()).[xn k] = c_i xs k.
Proof. move=> Hk. by rewrite (deriv_W _ Hk) kronecker // eqxx mulr1 subrr mul0r addr0. Qed.
Lemma off_diag k j : (k < n)%N -> (j < n)%N -> k != j -> ((lagP j)^`()).[xn k] = c_i xs k / c_i xs j / xi_xj xs k j.
Proof.
  move=> Hk Hj H. have E := deriv_W (xn k) Hj. rewrite deriv_W_node // kronecker // eq_sym (negbTE H) mulr0 add0r in E. rewrite /xi_xj (negbTE H).
  have N1 := c_neq0 Hj. have N2 := node_neq Hk Hj H. by rewrite E mulrCA [c_i xs j * _]mulrC mulfK // [_ * ((lagP j)^`()).[_]]mulrC mulfK.
Qed.
Lemma deriv_sum (s : seq nat) (f : nat -> {poly F}) : (\sum_(i <- s) f i)^`() = \sum_(i <- s) (f i)^`().
Proof. by elim: s => [|i s IH]; rewrite ?big_nil ?big_cons ?deriv0 // derivD IH. Qed.
Lemma np_sumE (f : nat -> F) m : np_sum f m = \sum_(j <- iota 0 m) f j.
Proof. by rewrite /np_sum foldl_sum add0r. Qed.
Lemma nodalE k j : (k < n)%N -> (j < n)%N -> nodal_derivative xs k j = ((lagP j)^`()).[xn k].
Proof.
  move=> Hk Hj. rewrite /nodal_derivative /off_diagonal. case: (eqVneq k j) => [<-|H]; last by rewrite off_diag.
  have E : \sum_(i <- iota 0 n) ((lagP i)^`()).[xn k] = 0. { rewrite -horner_sum -deriv_sum unity ?(leq_ltn_trans _ Hk) //. by rewrite -(polyC1 F) derivC horner0. }
  rewrite np_sumE. move: E. rewrite !(bigD1_seq k) ?mem_iota ?iota_uniq //= eqxx add0r => /eqP. rewrite addr_eq0 => /eqP ->. congr (- _). rewrite big_seq_cond [RHS]big_seq_cond. apply: eq_bigr => i /andP [H1 H2].
  rewrite mem_iota in H1. rewrite eq_sym (negbTE H2). by rewrite off_diag // eq_sym.
Qed.
Lemma size_deriv_lag j : (j < n)%N -> (size ((lagP j)^`()) <= n)%N.
Proof. move=> Hj. apply: (leq_trans (lt_size_deriv _) _) || apply: (leq_trans (size_poly _ _)). apply: (leq_trans (leq_pred _)). exact: size_lagP. Qed.
Lemma derivative_polyE j x : (j < n)%N -> derivative_poly xs j x = ((lagP j)^`()).[x].
Proof.
  move=> Hj. rewrite /derivative_poly np_sumE [in RHS](interpolate (size_deriv_lag Hj)) horner_sum. apply: eq_big_seq => k. rewrite mem_iota /= => Hk. by rewrite hornerZ nodalE // lagPE.
Qed.
(** derivative of every polynomial of that degree *)
Lemma derivative_interpolate (q : {poly F}) x : (size q <= n)%N -> (q^`()).[x] = \sum_(j <- iota 0 n) q.[xn j] * derivative_poly xs j x.
Proof.
  move=> S. rewrite [in LHS](interpolate S) deriv_sum horner_sum. apply: eq_big_seq => j. rewrite mem_iota /= => Hj. by rewrite derivZ hornerZ derivative_polyE.
Qed.

(** * edge functions *)
Definition edgeP (i : nat) : {poly F} := - \sum_(j <- iota 0 i.+1) (lagP j)^`().
Lemma edgePE i x : (i.+1 < n)%N -> edge xs i x = (edgeP i).[x].
Proof.
  move=> Hi. rewrite /edge foldl_sub sub0r /edgeP hornerN horner_sum. congr (- _). apply: eq_big_seq => j. rewrite mem_iota add0n /= => Hj. rewrite derivative_polyE //. exact: (leq_trans Hj (ltnW Hi)).
Qed.
Lemma iota_r m : iota 0 m.+1 = rcons (iota 0 m) m.
Proof. by rewrite -addn1 iota_add cats1 add0n. Qed.
Lemma big_r (f : nat -> {poly F}) m : \sum_(j <- iota 0 m.+1) f j = \sum_(j <- iota 0 m) f j + f m.
Proof. by rewrite iota_r big_rcons_op /= ?addrC // || rewrite iota_r -cats1 big_cat big_seq1. Qed.
Lemma abel (u : nat -> F) (L : nat -> {poly F}) m :
  \sum_(i <- iota 0 m) (u i.+1 - u i) *: (- \sum_(j <- iota 0 i.+1) L j) = \sum_(j <- iota 0 m) u j *: L j - u m *: \sum_(j <- iota 0 m) L j.
Proof.
  elim: m => [|m IH]; first by rewrite !big_nil scaler0 subrr. rewrite [in LHS]big_r IH. rewrite !big_r. set A := \sum_(j <- iota 0 m) _ *: _. set B := \sum_(j <- iota 0 m) _.
  rewrite scalerN scalerBl opprB. set S' := u m.+1 *: _. by rewrite scalerDr !addrA subrK.
Qed.
(** the derivative of a function in the space, from the differences at the nodes *)
Lemma deriv_edges (q : {poly F}) : (size q <= n)%N -> (1 < n)%N -> q^`() = \sum_(i <- iota 0 n.-1) (q.[xn i.+1] - q.[xn i]) *: edgeP i.
Proof.
  move=> S N. rewrite [in LHS](interpolate S) deriv_sum. have En : n = n.-1.+1 by case: (size xs) N. rewrite /edgeP (abel (fun i => q.[xn i]) (fun j => (lagP j)^`())).
  have Z : \sum_(j <- iota 0 n) (lagP j)^`() = 0 by rewrite -deriv_sum unity ?(ltnW N) // -(polyC1 F) derivC.
  rewrite En big_r in Z. rewrite {1}En big_r. have -> : \sum_(j <- iota 0 n.-1) (lagP j)^`() = - (lagP n.-1)^`() by apply/eqP; rewrite -addr_eq0; apply/eqP.
  rewrite scalerN opprK. rewrite derivZ. congr (_ + _). apply: eq_bigr => j _. by rewrite derivZ.
Qed.
Lemma derivative_edges (q : {poly F}) x : (size q <= n)%N -> (1 < n)%N -> (q^`()).[x] = \sum_(0 <= i < n.-1) (q.[xn i.+1] - q.[xn i]) * edge xs i x.
Proof.
  move=> S N. rewrite (deriv_edges S N) horner_sum /index_iota subn0. apply: eq_big_seq => i. rewrite mem_iota add0n /= => Hi. rewrite hornerZ edgePE //. by case: (size xs) N Hi.
Qed.
(** the cochain of a 0-form and that of its derivative *)
Lemma combination (u : nat -> F) : (1 < n)%N ->
  exists q : {poly F}, (forall y, q.[y] = \sum_(i < n) u i * lagrange xs i y) /\ forall x, (q^`()).[x] = \sum_(i < n.-1) (u i.+1 - u i) * edge xs i x.
Proof.
  move=> N. exists (\sum_(i <- iota 0 n) u i *: lagP i). split.
  - move=> y. rewrite horner_sum -(big_mkord predT (fun i => u i * lagrange xs i y)) /index_iota subn0. apply: eq_bigr => i _. by rewrite hornerZ lagPE.
  - move=> x. rewrite derivative_edges ?size_sum // -(big_mkord predT (fun i => (u i.+1 - u i) * edge xs i x)). have E : forall j, (j < n)%N -> (\sum_(i <- iota 0 n) u i *: lagP i).[xn j] = u j.
    { move=> j Hj. rewrite horner_sum (eq_big_seq (fun i => u i * (i == j)%:R)); first exact: sum_delta. move=> i. rewrite mem_iota /= => Hi. by rewrite hornerZ kronecker. }
    apply: eq_big_nat => i /andP [_ Hi]. have H1 : (i.+1 < n)%N by case: (size xs) N Hi. by rewrite !E // ltnW.
Qed.

(** * integrals *)
Lemma integral_deriv (p : {poly F}) a b : integral p^`() a b = p.[b] - p.[a].
Proof.
  have G : forall c, \sum_(k < size p^`()) (p^`())`_k * (c ^+ k.+1 / k.+1%:R) = p.[c] - p`_0.
  { move=> c. rewrite horner_coef. case E : (size p) => [|m].
    - rewrite big_ord0 big1 => [|k _]; last by rewrite coef_deriv nth_default ?E // mul0rn mul0r. by rewrite (nth_default 0) ?E // subrr.
    - rewrite big_ord_recl /= expr0 mulr1 addrC addKr. have Hle : (size p^`() <= m)%N. { rewrite -ltnS -E. apply: lt_size_deriv. by rewrite -size_poly_eq0 E. }
      rewrite (big_ord_widen m (fun k => (p^`())`_k * (c ^+ k.+1 / k.+1%:R)) Hle) big_mkcond /=. 
      transitivity (\sum_(k < m) (p^`())`_k * (c ^+ k.+1 / k.+1%:R)); first by apply: eq_bigr => k _; case: ltnP => // H; rewrite (nth_default 0 H) mul0r.
      apply: eq_bigr => k _. rewrite coef_deriv. rewrite -mulr_natr -mulrA. congr (_ * _). by rewrite mulrC mulfVK // pnatr_eq0. }
  rewrite /integral. transitivity (\sum_(k < size p^`()) ((p^`())`_k * (b ^+ k.+1 / k.+1%:R) - (p^`())`_k * (a ^+ k.+1 / k.+1%:R))).
  - apply: eq_bigr => k _. by rewrite -mulrBr -mulrBl.
  - rewrite sumrB !G. by rewrite opprB addrA subrK.
Qed.
Lemma poly_eq_fun (p q : {poly F}) : (forall x, p.[x] = q.[x]) -> p = q.
Proof.
  move=> H. apply/eqP; rewrite -subr_eq0; apply/negPn/negP => NZ. pose rs := [seq i%:R : F | i <- iota 0 (size (p - q))].
  have R : all (root (p - q)) rs. { apply/allP => x _. by rewrite /root hornerD hornerN H subrr. }
  have D : uniq rs. { rewrite map_inj_uniq ?iota_uniq // => a b /eqP. by rewrite eqr_nat => /eqP. }
  have := max_poly_roots NZ R D. by rewrite size_map size_iota ltnn.
Qed.
Lemma step_delta i m : \sum_(j <- iota 0 i.+1) ((j == m)%:R - (j == m.+1)%:R) = (i == m)%:R :> F.
Proof.
  rewrite sumrB. have G : forall k, \sum_(j <- iota 0 i.+1) (j == k)%:R = (k < i.+1)%N%:R :> F.
  { move=> k. case: ltnP => H.
    - rewrite (bigD1_seq k) ?mem_iota ?iota_uniq //= eqxx big1 ?addr0 // => j Hj. by rewrite (negbTE Hj).
    - rewrite big_seq big1 // => j. rewrite mem_iota add0n /= => Hj. case: eqVneq => // E. move: Hj. by rewrite E ltnNge H. }
  rewrite !G !ltnS. case: (ltngtP m i) => H; rewrite ?subrr ?subr0 //. 
Qed.
Lemma histopolation i m (e : {poly F}) : (i.+1 < n)%N -> (m.+1 < n)%N -> (forall x, e.[x] = edge xs i x) -> integral e (xn m) (xn m.+1) = (i == m)%:R.
Proof.
  move=> Hi Hm H. have -> : e = (- \sum_(j <- iota 0 i.+1) lagP j)^`(). { apply: poly_eq_fun => x. rewrite H edgePE // /edgeP derivN deriv_sum. by []. }
  rewrite integral_deriv !hornerN !horner_sum opprK addrC -sumrB -(step_delta i m). apply: eq_big_seq => j. rewrite mem_iota add0n /= => Hj. have Hj' := leq_trans Hj (ltnW Hi). by rewrite !kronecker // ltnW.
Qed.
Lemma edge_is_poly i : (i.+1 < n)%N -> exists e : {poly F}, (size e < n)%N /\ forall x, e.[x] = edge xs i x.
Proof.
  move=> Hi. exists (edgeP i). split; last by move=> x; rewrite edgePE. rewrite /edgeP size_opp big_seq. elim/big_ind: _ => [|p q Hp Hq|j Hj]; first by rewrite size_poly0 (ltn_trans _ Hi).
  - apply: (leq_ltn_trans (size_add _ _)). by rewrite gtn_max Hp Hq.
  - rewrite mem_iota add0n /= in Hj. have Hj' := leq_trans Hj (ltnW Hi). case: (eqVneq (lagP j) 0) => [->|NZ]; first by rewrite deriv0 size_poly0 (ltn_trans _ Hi). exact: (leq_trans (lt_size_deriv NZ) (size_lagP Hj')).
Qed.
End Basis.
