(* Errors of the cochains of Rec2Example, TreconExample and ReconExample, on two
   cores. *)
From Coq Require Import Reals List Lia Lra Arith ZArith Bool.
From Verif Require Import TfiModel TfiSpec CtModel CtSpec RingSum SpaceSpec DiscModel DiscSpec DiscExample Disc2Model Disc2Spec Disc2Example ReconModel ReconSpec ReconProofs2.
From Verif Require ReconExample TreconExample TriExample TdiscExample.
From Verif Require Import TriModel TdiscModel TreconModel TreconSpec Rec2Model Rec2Spec Rec2Proofs4 Rec2Example ErrModel ErrSpec.
Import ListNotations.
Open Scope R_scope.
Definition zero2 : R -> R -> R := fun _ _ => 0.
Definition zero3 : R -> R -> R -> R := fun _ _ _ => 0.
(* the element of Rec2Example with the cochain c *)
Definition on_re (c : list R) : Form2 := mkForm2 re Disc2Example.exF2 c.
Definition on_tri (c : list R) : FormT := mkFormT 1 (tct_Jacobian_matrix TdiscExample.exA TdiscExample.exB TdiscExample.exC) (tct_mapping TdiscExample.exA TdiscExample.exB TdiscExample.exC) c.
Definition on_exF (c : list R) : Form3 := mkForm3 false DiscExample.exJ DiscExample.exF c.
Notation exq := ReconExample.exq.
Notation sp := ReconExample.sp.
(* 2-forms: the constant 1, and (0, -2, 0) in 3D *)
Lemma re_good c : good2 pos3 pos3 (on_re c).
Proof. split; [exact re_regular|apply re_orth]. Qed.
Lemma tri_good c : goodt pos3 pos3 (on_tri c).
Proof. exact TreconExample.pos3_nonzero. Qed.
Lemma exF_good k c : length c = length (cells3 k sp) -> good3 k sp (qmesh exq) (on_exF c).
Proof. intros L. split; [exact ReconExample.ex_nonzero|]. split; [discriminate|]. destruct k; try exact Logic.I; exact L. Qed.
Lemma sum_re : tquad pos3 pos3 (fun x y => det2 (el_J (f2_el (on_re rc2)) x y) * pow_diff 2 [1] (exact2 [zero2] (f2_map (on_re rc2)) x y)) = 8.
Proof.
  unfold tquad, rsum, pos3. cbn [combine fst snd map fold_right]. unfold on_re. cbn [f2_el]. rewrite !re_det. unfold pow_diff, rsum, exact2, through2, zero2. cbn. field.
Qed.
Lemma sum_tri : tquad pos3 pos3 (fun x y => det2 (ft_J (on_tri TreconExample.tc2) x y) * pow_diff 3 [1] (exact2 [fun _ _ => -1] (ft_map (on_tri TreconExample.tc2)) x y)) = 16.
Proof.
  unfold tquad, rsum, pos3. cbn [combine fst snd map fold_right]. unfold on_tri. cbn [ft_J]. rewrite !TreconExample.exJ_det. unfold pow_diff, rsum, exact2, through2. cbn. field.
Qed.
Lemma sum_exF : quad3 exq (fun x y z => det3 (f3_J (on_exF ReconExample.exc2) x y z) * pow_diff 2 [0; -2; 0] (exact3 [zero3; zero3; zero3] (f3_map (on_exF ReconExample.exc2)) x y z)) = 32.
Proof.
  unfold quad3, rsum, exq. cbn [combine q0 q1 q2 fst snd map fold_right]. unfold on_exF, exJ. cbn [f3_J]. unfold det3, pow_diff, rsum, exact3, through, zero3. cbn. field.
Qed.
(* n = 1: the function x, and the constant -1, against 0 on the reference square *)
Definition on_ru (c : list R) : Form2 := mkForm2 ru (fun x _ => x, fun _ y => y) c.
Definition sym2 : rule := ([- (1 / 2); 1 / 2], [1; 1]).
Definition cx : list R := [-1; 1; -1; 1].
Definition cm : list R := [-1; -1; -1; -1].
Ltac hats := unfold r2hat0, expand2, cells, deg2; cbn [flat_map map app pdeg P1 z0 z1 rs1 cells_t]; unfold rsum; cbn; field.
Lemma hat_cx x y : r2hat0 rs1 cx x y = x.
Proof. hats. Qed.
Lemma hat_cm x y : r2hat0 rs1 cm x y = -1.
Proof. hats. Qed.
Lemma ru_good c : good2 sym2 sym2 (on_ru c).
Proof. split; [|intros _]; intros x y _ _; unfold det2, cross2, mcol, comp, diagonal2; cbn; [lra|split; reflexivity]. Qed.
Lemma sum_cx : tquad sym2 sym2 (fun x y => det2 (el_J (f2_el (on_ru cx)) x y) * pow_diff 1 [x] (exact2 [zero2] (f2_map (on_ru cx)) x y)) = 0.
Proof. unfold tquad, rsum, sym2. cbn [combine fst snd map fold_right]. unfold det2, cross2, mcol, comp, pow_diff, rsum, exact2, through2, zero2. cbn. field. Qed.
Lemma sum_cm : tquad sym2 sym2 (fun x y => det2 (el_J (f2_el (on_ru cm)) x y) * pow_diff 1 [-1] (exact2 [zero2] (f2_map (on_ru cm)) x y)) = -4.
Proof. unfold tquad, rsum, sym2. cbn [combine fst snd map fold_right]. unfold det2, cross2, mcol, comp, pow_diff, rsum, exact2, through2, zero2. cbn. field. Qed.
Lemma ex_field3 x y z : fields3 V2 ReconExample.sp ReconExample.exc2 DiscExample.exJ x y z [0; -2; 0].
Proof.
  assert (E : through (value ReconExample.exw) DiscExample.exF x y z = (0, -2, 0)).
  { unfold through, value, ReconExample.exw, curl_field, curl_of, exD. cbn. repeat f_equal; try lra. }
  pose proof (ReconExample.ex_hat2 x y z) as H. rewrite E in H. exact H.
Qed.
Lemma re_right c : right2 TreconExample.pos3 TreconExample.pos3 (on_re c) /\ orth_ok (f2_el (on_re c)) (fst TreconExample.pos3) (fst TreconExample.pos3).
Proof. split; [exact re_pos|apply re_orth]. Qed.
Lemma off_ex e : In e [mkEel [1] [[3]] [1]] -> off_by [fun x : R => x + 1] [1] e /\ xyz e <> [].
Proof.
  intros [<-|[]]. split; [|discriminate]. split; [reflexivity|]. intros [|[|m]] v f c V F C; try discriminate. injection V as <-. injection F as <-. injection C as <-. split; [reflexivity|].
  intros [|[|i]] x I; try discriminate. injection I as <-. cbn. f_equal. lra.
Qed.
