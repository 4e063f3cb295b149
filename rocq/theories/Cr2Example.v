(* Cross products on the element of Rec2Example and on meshes of four triangles. *)
From Coq Require Import Reals List Lia Lra Arith ZArith Bool.
From Verif Require Import TfiModel TfiSpec CtModel CtSpec RingSum SpaceSpec DiscModel DiscSpec Disc2Model Disc2Spec Disc2Example ReconModel ReconSpec CrossModel CrossSpec.
From Verif Require ReconExample TreconExample.
From Verif Require Import TriModel TriSpec TdiscModel TdiscSpec TdiscProofs TreconModel TreconSpec TreconProofs3 Rec2Model Rec2Spec Rec2Example Cr2Model Cr2Spec Cr2Proofs Cr2Proofs2.
Import ListNotations.
Open Scope R_scope.
Lemma ex_scalar : scalar_at sk0 rs (fst pos3) (fst pos3) (el_J re) rc0 (through2 exf2 exF2).
Proof. split; [reflexivity|]. intros x y _ _. apply hat_f. Qed.
Lemma ex_one : scalar_at sk2 rs (fst pos3) (fst pos3) (el_J re) rc2 (fun _ _ => 1).
Proof. split; [reflexivity|]. intros x y _ _. apply hat_one. Qed.
Lemma ex_inner : vector_at Inner rs (fst pos3) (fst pos3) (el_J re) rc1 (through2 (Disc2Spec.value2 exv2) exF2).
Proof. split; [reflexivity|]. intros x y _ _. apply hat_v. Qed.
Lemma ex_outer : vector_at Outer rs (fst pos3) (fst pos3) (el_J re) rc1o (through2 (Disc2Spec.value2 exu2) exF2).
Proof. split; [reflexivity|]. intros x y _ _. apply hat_u. Qed.

(* two unit squares, each of two triangles *)
Definition mx_pts : list point := [(0, 0); (1, 0); (2, 0); (0, 1); (1, 1); (2, 1)].
Definition mx_cells : list tri := [(0, 1, 4); (0, 4, 3); (1, 2, 5); (1, 5, 4)]%nat.
Definition mx_conds : list (nat * (point -> bool)) := [(5%nat, fun _ => true)].
Definition mx_made := match element_map mx_cells with Some E => parse_boundaries mx_conds mx_pts mx_cells E | None => None end.
Definition mx_sides : smap := Eval vm_compute in match mx_made with Some M => M | None => [] end.
Lemma mx_oriented : oriented_cells mx_pts mx_cells = Some mx_cells.
Proof.
  unfold oriented_cells, mx_cells, mx_pts, oriented, orientation. cbn [map nth_error fst snd].
  repeat match goal with |- context [Rlt_dec ?a ?b] => destruct (Rlt_dec a b); try lra end. reflexivity.
Qed.
Lemma mx_mesh : make_mesh mx_conds mx_pts mx_cells = Some (mx_cells, mx_sides).
Proof. unfold make_mesh. rewrite mx_oriented. vm_compute. reflexivity. Qed.
Lemma mx_lattice : on_lattice mx_pts.
Proof.
  intros p I. cbn in I. destruct I as [<-|[<-|[<-|[<-|[<-|[<-|[]]]]]]];
    [exists 0%Z, 0%Z|exists 10000%Z, 0%Z|exists 20000%Z, 0%Z|exists 0%Z, 10000%Z|exists 10000%Z, 10000%Z|exists 20000%Z, 10000%Z]; f_equal; field.
Qed.
Lemma fmt4_Z k : fmt4 (IZR k / 10000) = ((k <? 0)%Z, Z.abs k).
Proof. apply fmt4_lattice. Qed.
Lemma mx_shape c : In c [0; 1; 2; 3]%nat -> shape mx_pts mx_cells c = if Nat.even c then [(false, 10000%Z); (false, 10000%Z); (false, 0%Z); (false, 10000%Z)] else [(false, 10000%Z); (false, 0%Z); (false, 10000%Z); (false, 10000%Z)].
Proof.
  assert (A : fmt4 1 = (false, 10000%Z)) by (replace 1 with (IZR 10000 / 10000) by field; apply fmt4_Z).
  assert (B : fmt4 0 = (false, 0%Z)) by (replace 0 with (IZR 0 / 10000) by field; apply fmt4_Z).
  intros I. cbn in I. destruct I as [<-|[<-|[<-|[<-|[]]]]]; unfold shape, shape_of, corner, at_point, mx_pts; cbn [cell_at mx_cells nth vertices fst snd Nat.even];
    repeat match goal with |- context [fmt4 (?a - ?b)] => (replace (a - b) with 1 by ring) || (replace (a - b) with 0 by ring) end; rewrite ?A, ?B; reflexivity.
Qed.
Lemma mx_similar : high_similarity mx_pts mx_cells [0; 1; 2; 3]%nat = true.
Proof. unfold high_similarity. cbn [map length]. rewrite !mx_shape by (cbn; tauto). vm_compute. reflexivity. Qed.

(* cells 1 and 3, one point; the vectors on cell 3 *)
Definition q1 : rule := ([0], [2]).
Lemma grid1 (Q : R -> R -> Prop) : Q 0 0 -> on_grid2 (fst q1) (fst q1) Q.
Proof. intros H x y X Y. cbn in X, Y. destruct X as [<-|[]], Y as [<-|[]]. exact H. Qed.
Lemma mx_J1 : cellJ mx_pts mx_cells 1 0 0 = ((1 / 4, 1 / 4), (0, 1 / 2)).
Proof. unfold cellJ. rewrite tct_J. unfold corner, at_point, mx_pts. cbn [cell_at mx_cells nth vertices fst snd]. repeat (f_equal; try field). Qed.
Lemma mx_J3 : cellJ mx_pts mx_cells 3 0 0 = ((1 / 4, 1 / 4), (0, 1 / 2)).
Proof. unfold cellJ. rewrite tct_J. unfold corner, at_point, mx_pts. cbn [cell_at mx_cells nth vertices fst snd]. repeat (f_equal; try field). Qed.
Definition ones : list R := [1; 1; 1].
Lemma mx_w : tscalar_at ReconExample.P1 (fst q1) (fst q1) ones (fun _ _ => 1).
Proof. split; [reflexivity|]. apply grid1. unfold that0, tsum2, rsum, node_val, ones. TreconExample.numbers. field. Qed.
Ltac hats := unfold that1, tsum2, rsum, edge_val; cbn [seq map fold_right size pdeg ReconExample.P1 fst snd]; TreconExample.signs; unfold dot2, cross2, mcol, comp; TreconExample.numbers.
Lemma mx_u c : c = 1%nat \/ c = 3%nat -> tvector_at Outer ReconExample.P1 mx_sides c (fst q1) (fst q1) (cellJ mx_pts mx_cells c) [2; 0; 0] (fun _ _ => (1, 0)).
Proof. intros [->| ->]; (split; [reflexivity|]); apply grid1; intros d; [rewrite mx_J1|rewrite mx_J3]; destruct d; hats; field. Qed.
Lemma mx_v1 : tvector_at Inner ReconExample.P1 mx_sides 1 (fst q1) (fst q1) (cellJ mx_pts mx_cells 1) [0; 1; 0] (fun _ _ => (0, 1 / 2)).
Proof. split; [reflexivity|]. apply grid1. intros d. rewrite mx_J1. destruct d; hats; field. Qed.
Lemma mx_v3 : tvector_at Inner ReconExample.P1 mx_sides 3 (fst q1) (fst q1) (cellJ mx_pts mx_cells 3) [0; 1; 0] (fun _ _ => (0, - (1 / 2))).
Proof. split; [reflexivity|]. apply grid1. intros d. rewrite mx_J3. destruct d; hats; field. Qed.
Lemma mx_regular c : c = 1%nat \/ c = 3%nat -> on_grid2 (fst q1) (fst q1) (fun x y => det2 (cellJ mx_pts mx_cells c x y) <> 0).
Proof. intros [->| ->]; apply grid1; [rewrite mx_J1|rewrite mx_J3]; unfold det2, cross2, mcol, comp; cbn [fst snd]; lra. Qed.
Lemma mx_triple c v : c = 1%nat \/ c = 3%nat -> triple2 q1 q1 (cellJ mx_pts mx_cells c) (fun _ _ => 1) (fun _ _ => (1, 0)) (fun _ _ => (0, v)) = v / 2.
Proof.
  intros H. unfold triple2, tquad, rsum. cbn [combine q1 fst snd fold_right]. destruct H as [->| ->]; [rewrite mx_J1|rewrite mx_J3];
    rewrite plane_triple; unfold det2, cross2, mcol, comp; cbn [fst snd]; field.
Qed.
Lemma mixed_refuted : exists conds pts given cls M els r0 r1 c cw cu ce w u v A,
  make_mesh conds pts given = Some (cls, M) /\ on_lattice pts /\ In c els /\
  on_grid2 (fst r0) (fst r1) (fun x y => det2 (cellJ pts cls c x y) <> 0) /\
  nth_error (cross_requests pts cls M els Outer Inner ReconExample.P1 ReconExample.P1 ReconExample.P1 r0 r1 els) c = Some A /\
  tscalar_at ReconExample.P1 (fst r0) (fst r1) cw w /\ tvector_at Outer ReconExample.P1 M c (fst r0) (fst r1) (cellJ pts cls c) cu u /\
  tvector_at Inner ReconExample.P1 M c (fst r0) (fst r1) (cellJ pts cls c) ce v /\
  CrossSpec.tri A cw cu ce <> triple2 r0 r1 (cellJ pts cls c) w u v.
Proof.
  exists mx_conds, mx_pts, mx_cells, mx_cells, mx_sides, [0; 1; 2; 3]%nat, q1, q1, 3%nat, ones, [2; 0; 0], [0; 1; 0], (fun _ _ => 1), (fun _ _ => (1, 0)), (fun _ _ => (0, - (1 / 2))).
  exists (cross_tri Outer Inner ReconExample.P1 ReconExample.P1 ReconExample.P1 mx_sides q1 q1 (cellJ mx_pts mx_cells 1) 1).
  split; [exact mx_mesh|]. split; [exact mx_lattice|]. split; [cbn; tauto|]. split; [apply mx_regular; auto|]. split.
  { unfold cross_requests. rewrite mx_similar.
    assert (K : forall c c', In c [0; 1; 2; 3]%nat -> In c' [0; 1; 2; 3]%nat -> key_eqb (key1 mx_pts mx_cells mx_sides Outer c) (key1 mx_pts mx_cells mx_sides Outer c') = Bool.eqb (Nat.even c) (Nat.even c')).
    { intros c c' I I'. unfold key1. rewrite !mx_shape by assumption. cbn in I, I'.
      destruct I as [<-|[<-|[<-|[<-|[]]]]], I' as [<-|[<-|[<-|[<-|[]]]]]; vm_compute; reflexivity. }
    revert K. generalize (key1 mx_pts mx_cells mx_sides Outer). intros key K. unfold requests, realtime, lookup. cbn [find fst].
    rewrite (K 1 0)%nat by (cbn; tauto). cbn [Nat.even Bool.eqb find fst]. rewrite (K 2 1)%nat by (cbn; tauto). cbn [Nat.even Bool.eqb find fst].
    rewrite (K 2 0)%nat by (cbn; tauto). cbn [Nat.even Bool.eqb find fst snd]. rewrite (K 3 1)%nat by (cbn; tauto). cbn [Nat.even Bool.eqb find fst snd]. reflexivity. }
  split; [exact mx_w|]. split; [apply mx_u; auto|]. split; [exact mx_v3|].
  rewrite (cross_tri_ok q1 q1 (cellJ mx_pts mx_cells 1) mx_sides 1 eq_refl eq_refl (mx_regular 1 (or_introl eq_refl)) Outer Inner _ _ _ ones [2; 0; 0] [0; 1; 0] _ _ _ mx_w (mx_u 1 (or_introl eq_refl)) mx_v1).
  rewrite !mx_triple by auto. lra.
Qed.

(* cells of 1e-5: squares of widths 1e-5 and 2e-5 *)
Definition fn_h : R := 1 / 100000.
Definition fn_pts : list point := [(0, 0); (fn_h, 0); (3 * fn_h, 0); (0, fn_h); (fn_h, fn_h); (3 * fn_h, fn_h)].
Lemma fn_oriented : oriented_cells fn_pts mx_cells = Some mx_cells.
Proof.
  unfold oriented_cells, mx_cells, fn_pts, oriented, orientation, fn_h. cbn [map nth_error fst snd].
  repeat match goal with |- context [Rlt_dec ?a ?b] => destruct (Rlt_dec a b); try lra end. reflexivity.
Qed.
Lemma fn_mesh : make_mesh mx_conds fn_pts mx_cells = Some (mx_cells, mx_sides).
Proof. unfold make_mesh. rewrite fn_oriented. vm_compute. reflexivity. Qed.
Lemma fmt4_small x : 0 <= x < 1 / 30000 -> fmt4 x = (false, 0%Z).
Proof.
  intros [A B]. unfold fmt4. destruct (Rlt_dec x 0) as [L|_]; [lra|]. f_equal. rewrite Rabs_pos_eq by lra. unfold round_even.
  assert (E : Int_part (10000 * x) = 0%Z) by (unfold Int_part; rewrite <- (tech_up (10000 * x) 1) by lra; reflexivity).
  unfold frac_part. rewrite E. destruct (Rlt_dec (10000 * x - 0) (1 / 2)) as [_|L]; [reflexivity|lra].
Qed.
Lemma fn_shape c : In c [0; 1; 2; 3]%nat -> shape fn_pts mx_cells c = [(false, 0%Z); (false, 0%Z); (false, 0%Z); (false, 0%Z)].
Proof.
  intros I. cbn in I. destruct I as [<-|[<-|[<-|[<-|[]]]]]; unfold shape, shape_of, corner, at_point, fn_pts; cbn [cell_at mx_cells nth vertices fst snd];
    unfold fn_h; rewrite !fmt4_small by lra; reflexivity.
Qed.
Lemma fn_det0 : det2 (cellJ fn_pts mx_cells 0 0 0) = fn_h * fn_h / 8.
Proof. unfold cellJ. rewrite tct_J. unfold det2, cross2, mcol, comp, corner, at_point, fn_pts. cbn [cell_at mx_cells nth vertices fst snd]. field. Qed.
Lemma fn_det2 : det2 (cellJ fn_pts mx_cells 2 0 0) = fn_h * fn_h / 4.
Proof. unfold cellJ. rewrite tct_J. unfold det2, cross2, mcol, comp, corner, at_point, fn_pts. cbn [cell_at mx_cells nth vertices fst snd]. field. Qed.
Lemma fine_refuted : exists conds pts given cls M els P r0 r1 c A cw,
  make_mesh conds pts given = Some (cls, M) /\ In c els /\ length (fst r0) = length (snd r0) /\ length (fst r1) = length (snd r1) /\
  nth_error (mass0_requests pts cls els P r0 r1 els) c = Some A /\
  bilinear A cw cw <> tquad r0 r1 (fun x y => det2 (cellJ pts cls c x y) * (that0 P cw x y * that0 P cw x y)).
Proof.
  exists mx_conds, fn_pts, mx_cells, mx_cells, mx_sides, [0; 1; 2; 3]%nat, ReconExample.P1, q1, q1, 2%nat, (tinner0 ReconExample.P1 ReconExample.P1 q1 q1 (cellJ fn_pts mx_cells 0)), ones.
  split; [exact fn_mesh|]. split; [cbn; tauto|]. split; [reflexivity|]. split; [reflexivity|]. split.
  { unfold mass0_requests. assert (S : high_similarity fn_pts mx_cells [0; 1; 2; 3]%nat = true).
    { unfold high_similarity. cbn [map length]. rewrite !fn_shape by (cbn; tauto). vm_compute. reflexivity. }
    rewrite S. assert (K : forall c c', In c [0; 1; 2; 3]%nat -> In c' [0; 1; 2; 3]%nat -> key_eqb (key0 fn_pts mx_cells c) (key0 fn_pts mx_cells c') = true).
    { intros c c' I I'. unfold key0. rewrite !fn_shape by assumption. reflexivity. }
    revert K. generalize (key0 fn_pts mx_cells). intros key K. unfold requests, realtime, lookup. cbn [find fst].
    rewrite (K 1 0)%nat by (cbn; tauto). cbn [find fst snd]. rewrite (K 2 0)%nat by (cbn; tauto). cbn [find fst snd]. reflexivity. }
  rewrite (tinner0_ok q1 q1 (cellJ fn_pts mx_cells 0) eq_refl eq_refl). unfold tquad, rsum. cbn [combine q1 fst snd fold_right]. rewrite fn_det0, fn_det2.
  assert (E : that0 ReconExample.P1 ones 0 0 = 1) by (symmetry; apply mx_w; cbn; auto). rewrite E. unfold fn_h. lra.
Qed.
(* four unit triangles: cells 0 and 2 share a key *)
Lemma mx_tell : shapes_tell mx_pts mx_cells [0; 1; 2; 3]%nat.
Proof. intros c c' _ _. apply lattice_tell. exact mx_lattice. Qed.
Lemma mx_mass1 : exists A B, mass1_requests mx_pts mx_cells mx_sides [0; 1; 2; 3]%nat Inner ReconExample.P1 q1 q1 [1; 3]%nat = [A; B] /\
  bilinear B [0; 1; 0] [0; 1; 0] = 1 / 2 * dot2 (0, - (1 / 2)) (0, - (1 / 2)).
Proof.
  assert (N : forall c, In c [1; 3]%nat -> on_grid2 (fst q1) (fst q1) (fun x y => det2 (cellJ mx_pts mx_cells c x y) <> 0)) by (intros c [<-|[<-|[]]]; apply mx_regular; auto).
  assert (F := mass1_integrals mx_pts mx_cells mx_sides [0; 1; 2; 3]%nat Inner ReconExample.P1 q1 q1 [1; 3]%nat eq_refl eq_refl (lattice_shapes_tell _ _ _ mx_lattice) N).
  inversion F as [|? A ? ? _ F' E E2]; subst. inversion F' as [|? B ? ? FB F2]; subst. inversion F2; subst. exists A, B. split; [reflexivity|].
  rewrite (FB _ _ _ _ (proj2 mx_v3) (proj2 mx_v3)). unfold tquad, rsum. cbn [combine q1 fst snd fold_right]. rewrite mx_J3. unfold det2, dot2, cross2, mcol, comp. cbn [fst snd]. field.
Qed.
Lemma mx_cross : exists A B, cross_requests mx_pts mx_cells mx_sides [0; 1; 2; 3]%nat Inner Inner ReconExample.P1 ReconExample.P1 ReconExample.P1 q1 q1 [1; 3]%nat = [A; B] /\
  CrossSpec.tri A ones [0; 1; 0] [0; 1; 0] = triple2 q1 q1 (cellJ mx_pts mx_cells 1) (fun _ _ => 1) (fun _ _ => (0, 1 / 2)) (fun _ _ => (0, 1 / 2)) /\
  CrossSpec.tri B ones [0; 1; 0] [0; 1; 0] = triple2 q1 q1 (cellJ mx_pts mx_cells 3) (fun _ _ => 1) (fun _ _ => (0, - (1 / 2))) (fun _ _ => (0, - (1 / 2))).
Proof.
  assert (N : forall c, In c [1; 3]%nat -> on_grid2 (fst q1) (fst q1) (fun x y => det2 (cellJ mx_pts mx_cells c x y) <> 0)) by (intros c [<-|[<-|[]]]; apply mx_regular; auto).
  assert (F := cross_requests_ok mx_pts mx_cells mx_sides [0; 1; 2; 3]%nat Inner ReconExample.P1 ReconExample.P1 ReconExample.P1 q1 q1 [1; 3]%nat eq_refl eq_refl N).
  inversion F as [|? A ? ? FA F' E E2]; subst. inversion F' as [|? B ? ? FB F2]; subst. inversion F2; subst. exists A, B. split; [reflexivity|].
  split; [apply FA; [exact mx_w|exact mx_v1|exact mx_v1]|apply FB; [exact mx_w|exact mx_v3|exact mx_v3]].
Qed.
