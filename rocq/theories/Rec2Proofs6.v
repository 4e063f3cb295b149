(* Statements over all degrees k of forms on a 2D mesh. *)
From Coq Require Import Reals List Lia Arith ZArith Bool Permutation.
From Verif Require Import TfiModel CtModel SpaceSpec DiscModel DiscSpec Disc2Model Disc2Spec ReconModel ReconSpec ReconProofs4.
From Verif Require Import TriModel TreconModel TreconSpec Rec2Model Rec2Spec Rec2Proofs Rec2Proofs2 Rec2Proofs3.
Import ListNotations.
Open Scope R_scope.

Lemma n0_cells s : n0 s = length (cells (deg2 s) nodes2).
Proof. unfold cells, nodes2, n0. cbn [flat_map]. rewrite app_nil_r. fold (CT s false false). rewrite CT_len. cbn [size]. lia. Qed.
Lemma n2_cells s : n2 s = length (cells (deg2 s) faces2).
Proof. unfold cells, faces2, n2. cbn [flat_map]. rewrite app_nil_r. fold (CT s true true). rewrite CT_len. reflexivity. Qed.
Lemma n1_cells o s : n1 o s = length (cells (deg2 s) (edges2 o)).
Proof. rewrite edges_CE, app_length, CE_first, CE_second. reflexivity. Qed.
Theorem r2symmetric s same o r0 r1 e : orth_ok e (fst r0) (fst r1) ->
  symmetric (r2inner0 s s r0 r1 e) (length (cells (deg2 s) nodes2)) /\ symmetric (r2inner1 same o s s r0 r1 e) (length (cells (deg2 s) (edges2 o))) /\
  symmetric (r2inner2 s s r0 r1 e) (length (cells (deg2 s) faces2)).
Proof.
  intros H. rewrite <- n0_cells, <- n1_cells, <- n2_cells.
  exact (conj (r2inner0_sym s r0 r1 e) (conj (r2inner1_sym same o s r0 r1 e H) (r2inner2_sym s r0 r1 e))).
Qed.
Theorem r2positive r0 r1 s same o e : rule_ok r0 -> rule_ok r1 -> weights_pos r0 -> weights_pos r1 -> separates (fst r0) (z0 s) -> separates (fst r1) (z1 s) ->
  on_grid2 (fst r0) (fst r1) (fun x y => 0 < det2 (el_J e x y)) -> orth_ok e (fst r0) (fst r1) ->
  positive_definite (r2inner0 s s r0 r1 e) (length (cells (deg2 s) nodes2)) /\ positive_definite (r2inner1 same o s s r0 r1 e) (length (cells (deg2 s) (edges2 o))) /\
  positive_definite (r2inner2 s s r0 r1 e) (length (cells (deg2 s) faces2)).
Proof.
  intros H0 H1 W0 W1 S0 S1 D O. rewrite <- n0_cells, <- n1_cells, <- n2_cells.
  exact (conj (r2inner0_pos r0 r1 s S0 S1 H0 H1 W0 W1 e D) (conj (r2inner1_pos r0 r1 s S0 S1 H0 H1 W0 W1 e D same o O) (r2inner2_pos r0 r1 s S0 S1 H0 H1 W0 W1 e D))).
Qed.
Theorem r2vectors o s xi et hom els ids local : (hom = true -> alike els xi et) -> (forall e, In e els -> orth_ok e xi et) ->
  NoDup ids -> map fst local = ids ->
  let cs := map (cochain_at local) ids in
  r2vec0 s xi et (cochain_array local) = map (r2recon0 s xi et) cs /\
  r2vec1 o s xi et hom els (cochain_array local) = map2 (fun e c => r2recon1 o s xi et e c) els cs /\
  r2vec2 s xi et hom els (cochain_array local) = map2 (fun e c => r2recon2 s xi et e c) els cs.
Proof.
  intros A O N E. cbv zeta. rewrite (array_order local ids N E).
  exact (conj eq_refl (conj (r2vec1_ok o s xi et hom els _ A O) (r2vec2_ok s xi et hom els _ A))).
Qed.
Theorem r2L2 hom els r0 r1 same o so ss co cs : (hom = true -> alike els (fst r0) (fst r1)) -> (forall e, In e els -> orth_ok e (fst r0) (fst r1)) -> (same = true -> so = ss) ->
  let total M := rsum (combine els (combine co cs)) (fun q => bilinear (M (fst q)) (fst (snd q)) (snd (snd q))) in
  r2L2_with hom els (r2inner0 so ss r0 r1) co cs = total (r2inner0 so ss r0 r1) /\
  r2L2_with hom els (r2inner1 same o so ss r0 r1) co cs = total (r2inner1 same o so ss r0 r1) /\
  r2L2_with hom els (r2inner2 so ss r0 r1) co cs = total (r2inner2 so ss r0 r1).
Proof.
  intros A O E. cbv zeta.
  split; [|split]; (apply r2L2_sum; intros Hh e e' I I'; destruct (inner_alike hom els r0 r1 so ss same o A E O Hh e e' I I') as (K0 & K1 & K2); assumption).
Qed.
