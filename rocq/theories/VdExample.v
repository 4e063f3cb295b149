(* The maps and spaces of ReconExample and CrossExample. *)
From Coq Require Import Reals List Lia Lra Arith ZArith.
From Verif Require Import TfiModel TfiSpec CtModel CtSpec RingSum SpaceModel SpaceSpec SpaceProofs3 DiscModel DiscSpec DiscProofs DiscProofs2 DiscProofs3 DiscExample ReconModel ReconSpec ReconExample.
From Verif Require Import CrossModel CrossSpec CrossExample VdModel VdSpec VdProofs2.
Import ListNotations.
Open Scope R_scope.

(* u = (X, 0, 0), a 2-form with components of 0-forms *)
Definition vm : Mesh3 := mkMesh3 [0; 1 / 2] [0] [1 / 2].
Lemma v_form m : form_at (kd vk2) sp m exJ2 exc2' (through (value exu2) exF2).
Proof. split; [reflexivity|]. intros x y z _ _ _. apply ex_hat2'. Qed.
Lemma v_det m : on_grid m (fun x y z => det3 (exJ2 x y z) <> 0).
Proof. intros x y z _ _ _. unfold det3, exJ2. lra. Qed.
Lemma v_diag m : on_grid m (fun x y z => diagonal (exJ2 x y z)).
Proof. intros x y z _ _ _ [] [] H; try (exfalso; apply H; reflexivity); reflexivity. Qed.
Lemma v_inside : inside_grid vm.
Proof. intros x y z X Y Z. cbn in X, Y, Z. intuition lra. Qed.
Lemma v_space : in_space0 sp exF2 exu2.
Proof.
  intros i. exists (map (int0 exg exF2 (exu2 i)) (cells [2; 1; 1]%nat nodes3)). split; [reflexivity|]. intros x y z _ _ _.
  destruct i; unfold exu2, exF2, hat0, expand, int0, cell_quad, through, rsum; cbn; field.
Qed.
Lemma v_E10 : exists E, E10 (degrees sp) = Some E.
Proof. destruct (E10_acts RRing 2 1 1) as (E & HE & _). exists E. exact HE. Qed.
Lemma v_tensor : exists T, grad_tensor vk2 sp (grid_mesh exg) vm exJ2 true exc2' = Some T /\
  Forall2 (fun p t => forall i j, ent t i j = at_pt (through (exD2 i j) exF2) p) (points vm) T.
Proof.
  apply (grad_tensor_ok exg sp ex_grid ex_basis ex_rules exF2 exJ2 ex_jacobian2 vk2 vm true exc2' exu2 exD2 v_E10 (v_form _) (v_det _) (v_det _));
    [intros _; split; apply v_diag|exact v_inside|exact v_space|]. intros x y z _ _ _ i. apply ex_deriv2.
Qed.

(* the constant (1, 2, 3) as 1-form and as 2-form *)
Definition pq : Rule3 := mkRule3 ([-1; 1], [1; 1]) ([-1; 1], [1; 1]) ([-1; 1], [1; 1]).
Definition pdiag (a b : R) : list (list R) := [[a; 0; 0; 0; 0; 0]; [0; a; 0; 0; 0; 0]; [0; 0; b; 0; 0; 0]; [0; 0; 0; b; 0; 0]; [0; 0; 0; 0; b; 0]; [0; 0; 0; 0; 0; b]].
Definition pinv (M : list (list R)) : list (list R) := pdiag 2 8.
Definition pc1 : list R := repeat 4 8 ++ repeat 6 4.
Definition pc2 : list R := [4; 4; 16; 16; 24; 24].
Lemma p_mass : inner2 true true usp usp pq exJ2 = pdiag (1 / 2) (1 / 8).
Proof.
  unfold inner2, inner_blocks, basis2, kron, node_basis, edge_basis, usp, pq, exJ2, P1, gram, block0, fac2, ct_inverse_Jacobian_matrix, ct_inverse_metric_matrix, ct_Jacobian, ment, qw, weights3, points, mesh3, bmat3, hstack3, lsum, pdiag.
  cbn. repeat (apply f_equal2); try reflexivity; field.
Qed.
Lemma p_inverse : inverse_of (inner2 true true usp usp pq exJ2) (pinv (inner2 true true usp usp pq exJ2)) (length (cells (degrees usp) faces3)).
Proof.
  rewrite p_mass. change (length (cells (degrees usp) faces3)) with 6%nat. unfold pinv. split; [|split; [|split]].
  - split; [reflexivity|]. intros row H. cbn in H. intuition (subst; reflexivity).
  - split; [reflexivity|]. intros row H. cbn in H. intuition (subst; reflexivity).
  - intros c L. do 6 (destruct c as [|? c]; [discriminate L|]). destruct c; [|discriminate L]. unfold times, pdiag, rsum. cbn. repeat (apply f_equal2); try reflexivity; field.
  - intros c L. do 6 (destruct c as [|? c]; [discriminate L|]). destruct c; [|discriminate L]. unfold times, pdiag, rsum. cbn. repeat (apply f_equal2); try reflexivity; field.
Qed.
Lemma p_form1 m : form_at k1 usp m exJ2 pc1 (fun _ _ _ => (1, 2, 3)).
Proof. split; [reflexivity|]. intros x y z _ _ _ []; unfold pc1, exJ2, hat1, expand, along, col, dot, csum, ent, mrow, rsum; cbn; field. Qed.
Lemma p_form2 m : form_at k2 usp m exJ2 pc2 (fun _ _ _ => (1, 2, 3)).
Proof. split; [reflexivity|]. intros x y z _ _ _ []; unfold pc2, exJ2, hat2, expand, normal, cross, col, dot, csum, ent, mrow, rsum; cbn; field. Qed.
Lemma p_exact : VdModel.proj2 pinv usp usp pq exJ2 true pc1 = pc2.
Proof.
  apply (proj2_exact pinv usp usp pq exJ2 true ltac:(repeat split) (v_det _) (fun _ => v_diag _) p_inverse pc1 _ pc2 (p_form1 _) (p_form2 _)).
Qed.
