(* Degree 2 on the triangle of TdiscExample and on the two triangles of the unit square. *)
From Coq Require Import Reals List Lia Lra Arith ZArith.
From Verif Require Import CtModel RingSum SpaceModel SpaceSpec DiscModel DiscSpec DiscExample Disc2Model Disc2Spec Disc2Example ReconModel ReconSpec.
From Verif Require ReconExample.
From Verif Require Import TriModel TriSpec TriExample TdiscModel TdiscSpec TdiscProofs TdiscExample TreconModel TreconSpec.
Import ListNotations.
Open Scope R_scope.
Notation mid := DiscExample.mid.
Notation P2 := ReconExample.P2.
Notation exF := (tct_mapping exA exB exC).
Notation exJ := (tct_Jacobian_matrix exA exB exC).

Lemma P2_basis : basis_of exN0 P2.
Proof. exact (proj1 ReconExample.ex_basis). Qed.
Lemma P2_exact : exact_for exN0 mid P2.
Proof. exact (proj1 ReconExample.ex_rules). Qed.
Lemma P2_mirrored : mirrored P2.
Proof.
  split; intros i x Hi; cbn in Hi.
  - destruct i as [|[|[|i]]]; [| | |lia]; cbn; field.
  - destruct i as [|[|i]]; [| |lia]; cbn; field.
Qed.
Lemma exN0_ok : nodes_ok exN0.
Proof.
  split; [reflexivity|split].
  - intros x H. cbn in H. unfold in_ref. intuition lra.
  - intros j Hj. cbn in Hj. destruct j as [|[|[|j]]]; try lia; cbn; lra.
Qed.
Lemma mid_open : points_open mid.
Proof. intros x H. cbn in H. unfold in_open. intuition lra. Qed.
(* a rule of three points in the open interval *)
Definition pos3 : list R * list R := ([- (1 / 2); 0; 1 / 2], [2 / 3; 2 / 3; 2 / 3]).
Lemma pos3_ok : rule_ok pos3 /\ weights_pos pos3.
Proof. split; [reflexivity|]. intros w H. cbn in H. intuition lra. Qed.
Lemma pos3_separates : separates (fst pos3) P2.
Proof.
  split; intros u H i Hi; assert (H0 := H (- (1 / 2)) (or_introl eq_refl)); assert (H1 := H 0 (or_intror (or_introl eq_refl)));
    assert (H2 := H (1 / 2) (or_intror (or_intror (or_introl eq_refl)))); cbn in H0, H1, H2, Hi.
  - destruct i as [|[|[|i]]]; [lra|lra|lra|lia].
  - destruct i as [|[|i]]; [lra|lra|lia].
Qed.
Lemma exJ_det x y : det2 (exJ x y) = (y + 1) / 2.
Proof. rewrite tct_J. unfold det2, cross2, mcol, comp, exA, exB, exC. cbn. field. Qed.
Lemma pos3_det : on_grid2 (fst pos3) (fst pos3) (fun x y => 0 < det2 (exJ x y)).
Proof. intros x y _ H. rewrite exJ_det. cbn in H. intuition lra. Qed.
Lemma pos3_nonzero : on_grid2 (fst pos3) (fst pos3) (fun x y => det2 (exJ x y) <> 0).
Proof. intros x y X Y. pose proof (pos3_det x y X Y) as H. cbv beta in H. lra. Qed.

(* f = 3 X, v = (-Y, 1) with rotation 1, in the cell 1 of sq_sides *)
Definition tc0 : list R := [0; 0; 3 / 2; 3; 0; 3; 6].
Definition tv : (R -> R -> R) * (R -> R -> R) := (fun _ y => -1 * y, fun _ _ => 1).
Definition tc1 : list R := [- (7 / 8); - (5 / 8); - (5 / 2); - (3 / 2); -1; 3 / 8; 0; -1; 1 / 8; 0].
Definition tc2 : list R := [1 / 4; 1 / 4; 3 / 4; 3 / 4].
(* w = (1, Y) with divergence 1 *)
Definition tw : (R -> R -> R) * (R -> R -> R) := (fun _ _ => 1, fun _ y => 1 * y).
Definition tc1o : list R := [-1; 3 / 8; 0; -1; 1 / 8; 0; 7 / 8; 5 / 8; 5 / 2; 3 / 2].
Ltac signs := repeat match goal with |- context [transition ?o ?p ?m ?e ?k] => let z := eval vm_compute in (transition o p m e k) in change (transition o p m e k) with z end.
Ltac numbers := cbn; unfold Pos.to_nat; cbn.
Lemma tri_hat0 x y : through2 exf2 exF x y = that0 P2 tc0 x y.
Proof.
  unfold through2, exf2. rewrite tct_x. unfold that0, tsum2, rsum, node_val, tc0, exA, exB, exC. numbers. field.
Qed.
Lemma tri_hat1 x y : tpulls1 Inner (exJ x y) (through2 (Disc2Spec.value2 tv) exF x y) (fun d => that1 Inner P2 sq_sides 1 tc1 d x y).
Proof.
  intros d. unfold through2, Disc2Spec.value2, tv. rewrite tct_J, tct_y. unfold that1. destruct d; unfold tsum2, rsum, edge_val;
    cbn [seq map fold_right size pdeg P2 fst snd]; signs; unfold dot2, mcol, comp, tc1, exA, exB, exC; numbers; field.
Qed.
Lemma tri_hat2 x y : tpulls2 (exJ x y) 1 (that2 P2 tc2 x y).
Proof. unfold tpulls2. rewrite exJ_det. unfold that2, tsum2, rsum, face_val, tc2. numbers. field. Qed.
Lemma tri_hat1o x y : tpulls1 Outer (exJ x y) (through2 (Disc2Spec.value2 tw) exF x y) (fun d => that1 Outer P2 sq_sides 1 tc1o d x y).
Proof.
  intros d. unfold through2, Disc2Spec.value2, tw. rewrite tct_J, tct_y. unfold that1. destruct d; unfold tsum2, rsum, edge_val;
    cbn [seq map fold_right size pdeg P2 fst snd]; signs; unfold cross2, mcol, comp, tc1o, exA, exB, exC; numbers; field.
Qed.
Ltac entries := repeat match goal with |- context [incidence1 ?o ?p ?m ?e ?r ?k] =>
  let z := eval vm_compute in (incidence1 o p m e r k) in change (incidence1 o p m e r k) with z end.
Lemma tri_times : mat_times (incidence1 Inner 2 sq_sides 1) tc1 tc2.
Proof.
  intros r Hr. cbn in Hr. destruct r as [|[|[|[|r]]]]; [| | | |lia]; unfold apply_mat; cbn [length tc1 seq bsum]; unfold bsum; cbn [map fold_right]; entries;
    unfold zmul; numbers; lra.
Qed.
Lemma tri_times_o : mat_times (incidence1 Outer 2 sq_sides 1) tc1o tc2.
Proof.
  intros r Hr. cbn in Hr. destruct r as [|[|[|[|r]]]]; [| | | |lia]; unfold apply_mat; cbn [length tc1o seq bsum]; unfold bsum; cbn [map fold_right]; entries;
    unfold zmul; numbers; lra.
Qed.
