(* Degree 2 in both directions on the element X = x + x y, Y = 2 y. *)
From Coq Require Import Reals List Lia Lra Arith ZArith Bool.
From Verif Require Import CtModel RingSum SpaceModel SpaceSpec DiscModel DiscSpec DiscExample Disc2Model Disc2Spec Disc2Proofs Disc2Example ReconModel ReconSpec.
From Verif Require ReconExample TreconExample.
From Verif Require Import TriModel TreconModel TreconSpec Rec2Model Rec2Spec Rec2Proofs4 Rec2Proofs5.
Import ListNotations.
Open Scope R_scope.
Notation P2 := ReconExample.P2.
Notation pos3 := TreconExample.pos3.
Definition rs : Space2 := mkSpace2 P2 P2.
Definition rg : Grid2 := mkGrid2 exN0 exN0 DiscExample.mid DiscExample.mid.
Definition re : El2 := mkEl2 false exJ2.
Lemma rs_basis : basis2_of rg rs.
Proof. split; exact TreconExample.P2_basis. Qed.
Lemma rs_exact : exact2_for rg rs.
Proof. split; exact TreconExample.P2_exact. Qed.
Lemma rg_ok : grid2_ok rg.
Proof. intros x H. cbn in H. unfold in_ref. intuition lra. Qed.
Lemma re_det x y : det2 (el_J re x y) = 2 * (1 + y).
Proof. unfold det2, cross2, mcol, comp. cbn. ring. Qed.
Lemma re_pos : on_grid2 (fst pos3) (fst pos3) (fun x y => 0 < det2 (el_J re x y)).
Proof. intros x y _ H. rewrite re_det. cbn in H. intuition lra. Qed.
Lemma re_regular : regular re (fst pos3) (fst pos3).
Proof. intros x y X Y. pose proof (re_pos x y X Y) as H. cbv beta in H. lra. Qed.
Lemma re_orth xi et : orth_ok re xi et.
Proof. intros H. discriminate H. Qed.
(* f = 3 X with gradient (3, 0) and rotated gradient (0, -3), v = (-Y, 0) with
   rotation 1, u = (0, Y) with divergence 1 *)
Definition rc0 : list R := [0; 0; 0; -3; 0; 3; -6; 0; 6].
Definition rc1 : list R := [0; 0; 0; 0; -4; -4; -1; 0; 1; 1; 0; -1].
Definition rc1o : list R := [-1; 0; 1; 1; 0; -1; 0; 0; 0; 0; 4; 4].
Definition rc2 : list R := [1; 1; 3; 3].
Ltac fields := unfold r2hat0, r2hat1, r2hat2, expand2, cells, deg2; cbn [flat_map map app pdeg P2 z0 z1 rs cells_t]; 
  unfold rsum; cbn; unfold cross2, dot2, mcol, comp; cbn; field.
Lemma hat_f x y : through2 exf2 exF2 x y = r2hat0 rs rc0 x y.
Proof. unfold through2, exf2, exF2. cbn [fst snd]. fields. Qed.
Lemma hat_v x y : field1 Inner rs rc1 exJ2 x y (through2 (Disc2Spec.value2 exv2) exF2 x y).
Proof. intros d. unfold through2, Disc2Spec.value2, exv2, exF2, exJ2. cbn [fst snd]. destruct d; fields. Qed.
Lemma hat_u x y : field1 Outer rs rc1o exJ2 x y (through2 (Disc2Spec.value2 exu2) exF2 x y).
Proof. intros d. unfold through2, Disc2Spec.value2, exu2, exF2, exJ2. cbn [fst snd]. destruct d; fields. Qed.
Definition rcw : list R := [2; 2; 2; 2; 2; 2; 0; 0; 0; 0; 0; 0].
Lemma hat_w x y : field1 Outer rs rcw exJ2 x y (1, 0).
Proof. intros d. unfold exJ2. cbn [fst snd]. destruct d; fields. Qed.
Lemma hat_one x y : field2 rs rc2 exJ2 x y 1.
Proof. unfold field2, tpulls2. change (exJ2 x y) with (el_J re x y). rewrite re_det. fields. Qed.
Lemma disc_f : disc2_0 exN0 exN0 exF2 exf2 = rc0.
Proof. apply (r2inverse0 rg rs rs_basis rs_exact rg_ok); [reflexivity|]. intros x y _ _. apply hat_f. Qed.
Lemma disc_v : disc2_inner exN0 exN0 2 2 DiscExample.mid DiscExample.mid exF2 exJ2 false exv2 = rc1.
Proof. apply (r2inverse_inner rg rs rs_basis rs_exact rg_ok); [reflexivity|discriminate|]. intros x y _ _. apply hat_v. Qed.
Lemma disc_u : disc2_outer exN0 exN0 2 2 DiscExample.mid DiscExample.mid exF2 exJ2 false exu2 = rc1o.
Proof. apply (r2inverse_outer rg rs rs_basis rs_exact rg_ok); [reflexivity|discriminate|]. intros x y _ _. apply hat_u. Qed.
Lemma disc_one : disc2_2 exN0 exN0 2 2 DiscExample.mid DiscExample.mid exF2 exJ2 (fun _ _ => 1) = rc2.
Proof. apply (r2inverse2 rg rs rs_basis rs_exact rg_ok); [reflexivity|]. intros x y _ _. apply hat_one. Qed.
(* the reference square, one interval in each direction *)
Definition ru : El2 := mkEl2 true (fun _ _ => ((1, 0), (0, 1))).
Notation P1 := ReconExample.P1.
Definition rs1 : Space2 := mkSpace2 P1 P1.
Lemma hat_ex x y : field1 Inner rs1 [2; 2; 0; 0] (el_J ru) x y (1, 0).
Proof.
  intros d. unfold r2hat1, expand2, cells, deg2. cbn [flat_map map app pdeg P1 z0 z1 rs1 cells_t]. unfold rsum. 
  destruct d; cbn; unfold dot2, mcol, comp; cbn; field.
Qed.
