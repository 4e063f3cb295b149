(* Independence of the distribution over the cores; odd powers. *)
From Coq Require Import Reals List Lia Lra Arith ZArith Bool Permutation.
From Verif Require Import TfiModel TfiSpec CtModel CtSpec RingSum SpaceSpec DiscModel DiscSpec DiscProofs2 Disc2Model Disc2Spec ReconModel ReconSpec ReconProofs.
From Verif Require Import ReconProofs5 TreconProofs TreconProofs3 TreconProofs4 Rec2Proofs3 TriModel TreconModel TreconSpec Rec2Model Rec2Spec Rec2Example ErrModel ErrSpec ErrProofs ErrProofs2 ErrProofs3 ErrProofs4 ErrProofs5 ErrExample.
Import ListNotations.
Open Scope R_scope.
Lemma err2_cores k s r0 r1 n fs cores cores' : (0 < n)%nat -> Permutation (concat cores) (concat cores') -> err2 k s r0 r1 n fs cores = err2 k s r0 r1 n fs cores'.
Proof. intros N P. unfold err2. apply err_L_cores; [exact N|]. rewrite !concat_maps. apply Permutation_map. exact P. Qed.
Lemma errt_cores k Po M r0 r1 n fs cores cores' : (0 < n)%nat -> Permutation (concat cores) (concat cores') -> errt k Po M r0 r1 n fs cores = errt k Po M r0 r1 n fs cores'.
Proof. intros N P. unfold errt. apply err_L_cores; [exact N|]. rewrite !concat_maps. apply Permutation_map. exact P. Qed.
Lemma err3_cores k s q n fs cores cores' : (0 < n)%nat -> Permutation (concat cores) (concat cores') -> err3 k s q n fs cores = err3 k s q n fs cores'.
Proof. intros N P. unfold err3. apply err_L_cores; [exact N|]. rewrite !concat_maps. apply Permutation_map. exact P. Qed.
Lemma all_cores k s r0 r1 q Po M n fs gs : (0 < n)%nat ->
  (forall c c', Permutation (concat c) (concat c') -> err2 k s r0 r1 n fs c = err2 k s r0 r1 n fs c') /\
  (forall c c', Permutation (concat c) (concat c') -> errt k Po M r0 r1 n fs c = errt k Po M r0 r1 n fs c') /\
  (forall k3 s3 c c', Permutation (concat c) (concat c') -> err3 k3 s3 q n gs c = err3 k3 s3 q n gs c').
Proof. intros N. split; [|split]; intros; [apply err2_cores|apply errt_cores|apply err3_cores]; assumption. Qed.
Lemma sym2_ok : rule_ok sym2.
Proof. reflexivity. Qed.
Lemma odd_zero : err2 K0 rs1 sym2 sym2 1 [zero2] [[on_ru cx]] = Some 0.
Proof.
  destruct (err2_ok K0 rs1 sym2 sym2 1 [zero2] [[on_ru cx]] (fun _ x _ => [x]) ltac:(lia) sym2_ok sym2_ok) as [P _].
  - intros e [<-|[]]. apply ru_good.
  - intros e [<-|[]] x y _ _. unfold fields2. symmetry. apply hat_cx.
  - cbn [concat app] in P. rewrite rsum_cons in P. rewrite sum_cx in P. destruct (P ltac:(unfold rsum; cbn; lra)) as (r & -> & _ & X). f_equal. rewrite pow_1 in X. rewrite X. unfold rsum. cbn. lra.
Qed.
Lemma odd_none : err2 K0 rs1 sym2 sym2 1 [zero2] [[on_ru cm]] = None.
Proof.
  destruct (err2_ok K0 rs1 sym2 sym2 1 [zero2] [[on_ru cm]] (fun _ _ _ => [-1]) ltac:(lia) sym2_ok sym2_ok) as [_ P].
  - intros e [<-|[]]. apply ru_good.
  - intros e [<-|[]] x y _ _. unfold fields2. symmetry. apply hat_cm.
  - cbn [concat app] in P. rewrite rsum_cons in P. rewrite sum_cm in P. apply P. unfold rsum; cbn; lra.
Qed.
Lemma odd_zero_refuted : ~ (forall k s r0 r1 n fs cores, (0 < n)%nat -> rule_ok r0 -> rule_ok r1 -> weights_pos r0 -> weights_pos r1 -> length fs = num2 k ->
  (forall e, In e (concat cores) -> right2 r0 r1 e /\ orth_ok (f2_el e) (fst r0) (fst r1)) ->
  err2 k s r0 r1 n fs cores = Some 0 ->
  forall e, In e (concat cores) -> on_grid2 (fst r0) (fst r1) (fun x y => fields2 k s (f2_c e) (el_J (f2_el e)) x y (exact2 fs (f2_map e) x y))).
Proof.
  intros H. assert (W : weights_pos sym2) by (intros w I; cbn in I; intuition lra).
  assert (G : forall e, In e (concat [[on_ru cx]]) -> right2 sym2 sym2 e /\ orth_ok (f2_el e) (fst sym2) (fst sym2)).
  { intros e [<-|[]]. split; [|apply (ru_good cx)]. intros x y _ _. unfold det2, cross2, mcol, comp. cbn. lra. }
  specialize (H K0 rs1 sym2 sym2 1%nat [zero2] [[on_ru cx]] ltac:(lia) sym2_ok sym2_ok W W eq_refl G odd_zero (on_ru cx) (or_introl eq_refl) (1 / 2) (1 / 2)).
  cbv beta in H. specialize (H ltac:(cbn; tauto) ltac:(cbn; tauto)). unfold fields2, exact2, zero2, through2 in H. cbn [map f2_c on_ru] in H. rewrite hat_cx in H. lra.
Qed.
Lemma odd_none_refuted : ~ (forall k s r0 r1 n fs cores, (0 < n)%nat -> rule_ok r0 -> rule_ok r1 -> weights_pos r0 -> weights_pos r1 -> length fs = num2 k ->
  (forall e, In e (concat cores) -> right2 r0 r1 e /\ orth_ok (f2_el e) (fst r0) (fst r1)) -> exists r, err2 k s r0 r1 n fs cores = Some r).
Proof.
  intros H. assert (W : weights_pos sym2) by (intros w I; cbn in I; intuition lra).
  assert (G : forall e, In e (concat [[on_ru cm]]) -> right2 sym2 sym2 e /\ orth_ok (f2_el e) (fst sym2) (fst sym2)).
  { intros e [<-|[]]. split; [|apply (ru_good cm)]. intros x y _ _. unfold det2, cross2, mcol, comp. cbn. lra. }
  destruct (H K0 rs1 sym2 sym2 1%nat [zero2] [[on_ru cm]] ltac:(lia) sym2_ok sym2_ok W W eq_refl G) as (r & E). rewrite odd_none in E. discriminate.
Qed.
(* even powers give numbers *)
Lemma even_number k s r0 r1 m fs cores : (0 < m)%nat -> rule_ok r0 -> rule_ok r1 -> weights_pos r0 -> weights_pos r1 ->
  (forall e, In e (concat cores) -> right2 r0 r1 e /\ orth_ok (f2_el e) (fst r0) (fst r1)) -> exists r, err2 k s r0 r1 (2 * m) fs cores = Some r /\ 0 <= r.
Proof.
  intros M R0 R1 W0 W1 G.
  assert (Gd : forall e, In e (concat cores) -> good2 r0 r1 e).
  { intros e I. destruct (G e I) as [P D]. split; [|exact D]. intros x y X Y. pose proof (P x y X Y) as Q. cbv beta in Q. lra. }
  destruct (err2_ok k s r0 r1 (2 * m) fs cores (v2 k s) ltac:(lia) R0 R1 Gd (fun e I => v2_fields k s r0 r1 e (Gd e I))) as [P _].
  destruct P as (r & E & N & _); [|exists r; split; assumption].
  apply rsum_nonneg. intros e I. apply tquad_nonneg; try assumption. intros x y X Y. apply Rmult_le_pos; [left; exact (proj1 (G e I) x y X Y)|apply pow_diff_pos].
Qed.
(* more nodes for a density below one per element *)
Lemma inf_monotone_refuted : ~ (forall a b, 0 < a -> a <= b -> (length (inf_nodes a) <= length (inf_nodes b))%nat).
Proof.
  intros H. specialize (H (1 / 2) 1 ltac:(lra) ltac:(lra)).
  destruct (inf_nodes_ok (1 / 2)) as (n & _ & _ & L & E). destruct (inf_nodes_ok 1) as (m & _ & G & _ & E'). specialize (G ltac:(lra)).
  rewrite E, E', !map_length, !seq_length in H. rewrite (L ltac:(lra)) in H.
  assert (INR m <= 3 / 2). { pose proof (Rle_abs (INR m - 1)). lra. }
  assert (3 <= INR m) by (apply le_INR in H; cbn in H; lra). lra.
Qed.
Lemma upon_none {X} n w (fs : list (X -> R)) cores : err_upon form_func n w fs cores = None.
Proof. reflexivity. Qed.
Lemma upon_refuted : ~ (forall n w (fs : list (R -> R)) cores a, (0 < n)%nat -> length a = length fs -> concat cores <> [] -> (forall e, In e (concat cores) -> off_by fs a e /\ xyz e <> []) ->
  err_upon form_func n w fs cores = Some 0).
Proof.
  intros H. specialize (H 2%nat [1] [fun x => x] [[mkEel [1] [[2]] [1]]] [1] ltac:(lia) eq_refl ltac:(discriminate)). discriminate H.
  intros e [<-|[]]. split; [|discriminate]. split; [reflexivity|]. intros [|[|m]] v f c V F C; try discriminate. injection V as <-. injection F as <-. injection C as <-. split; [reflexivity|].
  intros [|[|i]] x I; try discriminate. injection I as <-. cbn. f_equal.
Qed.
Lemma err_H_zero a b : err_H (Some a) (Some b) = Some 0 <-> a = 0 /\ b = 0.
Proof.
  destruct (err_H_ok a b) as (h & -> & _ & E). split.
  - intros Q. injection Q as ->. nra.
  - intros [-> ->]. f_equal. nra.
Qed.
