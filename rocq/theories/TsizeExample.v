(* The unit square of two triangles, an equilateral triangle, a flat one. *)
From Coq Require Import List Arith Reals Lra Permutation.
From Verif Require Import TriModel TriSpec TriExample TsizeModel TsizeProofs.
Import ListNotations.
Local Open Scope R_scope.

Lemma sq_area : domain_area sq_pts sq_cells [[1]; []; [0]]%nat = Some 1.
Proof.
  assert (P : Permutation (concat [[1]; []; [0]]%nat) (seq 0 (length sq_cells))) by (cbn; apply perm_swap).
  destruct (domain_area_ok _ _ _ _ _ _ sq_mesh P) as [E _]. rewrite E. f_equal. unfold sq_cells, sq_pts, area2, pt. cbn [map fold_right corner nth fst snd]. lra.
Qed.
Definition eqA : point := (0, 0).
Definition eqB : point := (1, 0).
Definition eqC : point := (1 / 2, sqrt 3 / 2).
Lemma eq_distinct : eqA <> eqB /\ eqB <> eqC /\ eqA <> eqC.
Proof. unfold eqA, eqB, eqC. split; [|split]; intros E; apply (f_equal fst) in E; cbn [fst] in E; lra. Qed.
Lemma eq_area : area2 eqA eqB eqC <> 0.
Proof. unfold area2, eqA, eqB, eqC. cbn [fst snd]. assert (0 < sqrt 3) by (apply sqrt_lt_R0; lra). lra. Qed.
Lemma eq_quality : quality eqA eqB eqC = Some 1.
Proof.
  destruct eq_distinct as (N1 & N2 & N3). destruct (quality_ok _ _ _ N1 N2 N3) as (x & E & _ & Q & _). rewrite E. f_equal. apply Q.
  assert (S : sqrt 3 * sqrt 3 = 3) by (apply sqrt_sqrt; lra). unfold distance, eqA, eqB, eqC. cbn [fst snd]. split; f_equal; [field|]. cbn [pow]. lra.
Qed.
Lemma flat_quality : quality (0, 0) (1, 0) (3, 0) = Some 0.
Proof.
  assert (N1 : (0, 0) <> (1, 0) :> point) by (intros E; apply (f_equal fst) in E; cbn [fst] in E; lra). assert (N2 : (1, 0) <> (3, 0) :> point) by (intros E; apply (f_equal fst) in E; cbn [fst] in E; lra). assert (N3 : (0, 0) <> (3, 0) :> point) by (intros E; apply (f_equal fst) in E; cbn [fst] in E; lra).
  destruct (quality_ok _ _ _ N1 N2 N3) as (x & E & _ & _ & Q). rewrite E. f_equal. apply Q. unfold area2. cbn [fst snd]. lra.
Qed.
