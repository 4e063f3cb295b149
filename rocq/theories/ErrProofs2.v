(* Errors that vanish, shifted values, maxima. *)
From Coq Require Import Reals List Lia Lra Arith ZArith Bool Permutation.
From Verif Require Import TfiModel TfiSpec CtModel CtSpec RingSum SpaceSpec SpaceProofs DiscModel DiscSpec DiscProofs DiscProofs2 DiscProofs3 Disc2Model Disc2Spec Disc2Proofs.
From Verif Require Import ReconModel ReconSpec ReconProofs ReconProofs2 ReconProofs3 ReconProofs4 ReconProofs5.
From Verif Require Import TriModel TriSpec TriProofs TdiscModel TdiscSpec TreconModel TreconSpec TreconProofs TreconProofs3 TreconProofs4 Rec2Model Rec2Spec Rec2Proofs Rec2Proofs2 Rec2Proofs3 Rec2Proofs4.
From Verif Require Import ErrModel ErrSpec ErrProofs.
Import ListNotations.
Open Scope R_scope.

Lemma even_pow_pos m a : 0 <= a ^ (2 * m).
Proof. rewrite pow_mult. apply pow_le. cbn. nra. Qed.
Lemma even_pow_null m a : a ^ (2 * m) = 0 -> a = 0.
Proof. intros H. destruct (Req_dec a 0) as [E|N]; [exact E|]. exfalso. exact (pow_nonzero a (2 * m) N H). Qed.
Lemma pow_diff_pos m v u : 0 <= pow_diff (2 * m) v u.
Proof. apply rsum_nonneg. intros [a b] _. apply even_pow_pos. Qed.
Lemma pow_diff_null m v u : length v = length u -> pow_diff (2 * m) v u = 0 -> v = u.
Proof.
  unfold pow_diff. revert u. induction v as [|a v IH]; intros [|b u] L; try discriminate; [reflexivity|]. cbn [combine]. rewrite rsum_cons. cbn [fst snd]. intros H.
  pose proof (even_pow_pos m (a - b)). pose proof (pow_diff_pos m v u) as Q. unfold pow_diff in Q.
  assert (a - b = 0) by (apply (even_pow_null m); lra). rewrite (IH u); [f_equal; lra|cbn in L; lia|lra].
Qed.
Lemma pow_diff_self n v : (0 < n)%nat -> pow_diff n v v = 0.
Proof.
  intros N. unfold pow_diff. apply ReconProofs.rsum_zero'. intros [a b] I. cbn [fst snd].
  assert (a = b) by (clear - I; revert I; induction v as [|c v IH]; [intros []|]; cbn [combine]; intros [E|I]; [congruence|auto]). subst. rewrite Rminus_diag_eq by reflexivity. apply pow_i. exact N.
Qed.
Lemma root_zero n S r : (0 < n)%nat -> 0 <= S -> root_of n S r -> (r = Some 0 <-> S = 0).
Proof.
  intros N P [Q _]. destruct (Q P) as (e & -> & E & <-). split.
  - intros H. injection H as ->. apply pow_i. exact N.
  - intros H. f_equal. destruct (Req_dec e 0) as [Z|Z]; [exact Z|]. exfalso. exact (pow_nonzero e n Z H).
Qed.
(* a sum over elements of nonnegative quadratures vanishes iff all do *)
Lemma sum_null {A} (l : list A) f : (forall a, In a l -> 0 <= f a) -> (rsum l f = 0 <-> forall a, In a l -> f a = 0).
Proof. intros P. split; [intros H a I; exact (rsum_null l f P H a I)|apply ReconProofs.rsum_zero']. Qed.

(* ---------- 2D ---------- *)
Definition v2 (k : kind2) (s : Space2) (e : Form2) (x y : R) : list R :=
  match k with
  | K0 => [r2hat0 s (f2_c e) x y]
  | K1 o => [fst (r2val1 o s (f2_el e) (f2_c e) (x, y)); snd (r2val1 o s (f2_el e) (f2_c e) (x, y))]
  | K2 => [r2hat2 s (f2_c e) x y / det2 (el_J (f2_el e) x y)]
  end.
Lemma v2_fields k s r0 r1 e : good2 r0 r1 e -> on_grid2 (fst r0) (fst r1) (fun x y => fields2 k s (f2_c e) (el_J (f2_el e)) x y (v2 k s e x y)).
Proof.
  intros [N D] x y X Y. destruct k as [|o|]; unfold fields2, v2.
  - reflexivity.
  - rewrite <- surjective_pairing. apply (r2val1_pulls o s (f2_el e) (f2_c e) (fst r0) (fst r1)); assumption.
  - unfold field2, tpulls2. field. apply (N x y X Y).
Qed.
Lemma fields2_one k s c J x y v w : det2 (J x y) <> 0 -> fields2 k s c J x y v -> fields2 k s c J x y w -> v = w.
Proof.
  intros N V W. unfold fields2 in V, W. destruct k as [|o|].
  - destruct v as [|a [|b l]], w as [|a' [|b' l']]; try contradiction. congruence.
  - destruct v as [|a [|b [|c0 l]]], w as [|a' [|b' [|c0' l']]]; try contradiction. assert (E : (a, b) = (a', b')) by (eapply pulls1_inj; eassumption). injection E as -> ->. reflexivity.
  - destruct v as [|a [|b l]], w as [|a' [|b' l']]; try contradiction. unfold field2, tpulls2 in V, W. f_equal. rewrite <- W in V. apply (Rmult_eq_reg_r (det2 (J x y))); assumption.
Qed.
Lemma fields2_len k s c J x y v : fields2 k s c J x y v -> length v = num2 k.
Proof. unfold fields2. destruct k as [|o|]; destruct v as [|a [|b [|d l]]]; intros H; try contradiction; reflexivity. Qed.
Theorem err2_zero k s r0 r1 m fs cores : (0 < m)%nat -> rule_ok r0 -> rule_ok r1 -> weights_pos r0 -> weights_pos r1 -> length fs = num2 k ->
  (forall e, In e (concat cores) -> right2 r0 r1 e /\ orth_ok (f2_el e) (fst r0) (fst r1)) ->
  (err2 k s r0 r1 (2 * m) fs cores = Some 0 <->
   forall e, In e (concat cores) -> on_grid2 (fst r0) (fst r1) (fun x y => fields2 k s (f2_c e) (el_J (f2_el e)) x y (exact2 fs (f2_map e) x y))).
Proof.
  intros M R0 R1 W0 W1 L G.
  assert (Gd : forall e, In e (concat cores) -> good2 r0 r1 e).
  { intros e I. destruct (G e I) as [P D]. split; [|exact D]. intros x y X Y. pose proof (P x y X Y) as Q. cbv beta in Q. lra. }
  pose proof (err2_ok k s r0 r1 (2 * m) fs cores (v2 k s) ltac:(lia) R0 R1 Gd (fun e I => v2_fields k s r0 r1 e (Gd e I))) as H.
  assert (T : forall e, In e (concat cores) -> on_grid2 (fst r0) (fst r1) (fun x y => 0 <= det2 (el_J (f2_el e) x y) * pow_diff (2 * m) (v2 k s e x y) (exact2 fs (f2_map e) x y))).
  { intros e I x y X Y. apply Rmult_le_pos; [left; exact (proj1 (G e I) x y X Y)|apply pow_diff_pos]. }
  rewrite (root_zero (2 * m) _ _ ltac:(lia) (rsum_nonneg _ _ (fun e I => tquad_nonneg r0 r1 W0 W1 _ (T e I))) H).
  rewrite (sum_null _ _ (fun e I => tquad_nonneg r0 r1 W0 W1 _ (T e I))). split.
  - intros Z e I x y X Y. pose proof (tquad_null r0 r1 R0 R1 W0 W1 _ (T e I) (Z e I) x y X Y) as Q. cbv beta in Q.
    pose proof (proj1 (G e I) x y X Y) as P. cbv beta in P. apply Rmult_integral in Q as [Q|Q]; [lra|].
    pose proof (v2_fields k s r0 r1 e (Gd e I) x y X Y) as V. cbv beta in V. apply pow_diff_null in Q; [rewrite <- Q; exact V|].
    rewrite (fields2_len _ _ _ _ _ _ _ V). unfold exact2. rewrite map_length. symmetry. exact L.
  - intros Z e I. rewrite (tquad_ext r0 r1 _ (fun _ _ => 0)).
    + unfold tquad. apply ReconProofs.rsum_zero'. intros a _. apply ReconProofs.rsum_zero'. intros b _. ring.
    + intros x y X Y. rewrite (fields2_one k s (f2_c e) (el_J (f2_el e)) x y (v2 k s e x y) (exact2 fs (f2_map e) x y)).
      * rewrite pow_diff_self by lia. ring.
      * pose proof (proj1 (G e I) x y X Y) as P. cbv beta in P. lra.
      * apply (v2_fields k s r0 r1 e (Gd e I)); assumption.
      * apply (Z e I); assumption.
Qed.
(* the error of a discretized field of the space *)
Theorem err2_discretized k s g r0 r1 m fs cores : (0 < m)%nat -> rule_ok r0 -> rule_ok r1 -> weights_pos r0 -> weights_pos r1 ->
  (forall x, In x (fst r0) \/ In x (fst r1) -> in_ref x) -> basis2_of g s -> exact2_for g s -> grid2_ok g ->
  (forall e, In e (concat cores) -> right2 r0 r1 e /\ (el_orth (f2_el e) = true -> forall x y, diagonal2 (el_J (f2_el e) x y)) /\ discretized2 k g s fs e /\
     exists c, length c = length (cells2 k s) /\ in_square (fun x y => fields2 k s c (el_J (f2_el e)) x y (exact2 fs (f2_map e) x y))) ->
  err2 k s r0 r1 (2 * m) fs cores = Some 0.
Proof.
  intros M R0 R1 W0 W1 IR B X GO H. destruct (concat cores) as [|e0 l] eqn:EC.
  - assert (RT := err2_ok k s r0 r1 (2 * m) fs cores (v2 k s) ltac:(lia) R0 R1). rewrite EC in RT. specialize (RT (fun e I => match I with end) (fun e I => match I with end)).
    apply (root_zero (2 * m) _ _ ltac:(lia) (Rle_refl 0)) in RT. apply RT. reflexivity.
  - assert (L : length fs = num2 k).
    { destruct (H e0 (or_introl eq_refl)) as (_ & _ & D & _). unfold discretized2 in D. destruct k as [|[]|]; destruct fs as [|a [|b [|d fs]]]; try contradiction; reflexivity. }
    rewrite <- EC in H. clear EC e0 l. apply err2_zero; try assumption.
    + intros e I. destruct (H e I) as (P & O & _). split; [exact P|]. intros E x y _ _. apply (O E).
    + intros e I. destruct (H e I) as (P & O & D & c & Lc & F).
      assert (E : f2_c e = c).
      { unfold discretized2 in D. unfold cells2 in Lc. unfold fields2 in F. destruct k as [|o|].
        - destruct fs as [|f [|b fs]]; try contradiction. rewrite D. apply (r2inverse0 g s B X GO); assumption.
        - destruct o; destruct fs as [|a [|b [|d fs]]]; try contradiction; rewrite D; [apply (r2inverse_outer g s B X GO)|apply (r2inverse_inner g s B X GO)]; assumption.
        - destruct fs as [|f [|b fs]]; try contradiction. rewrite D. apply (r2inverse2 g s B X GO); assumption. }
      rewrite E. intros x y Hx Hy. apply F; apply IR; auto.
Qed.
