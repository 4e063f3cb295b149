(* Two triangles, fields on them, and rules of different degrees. *)
From Coq Require Import Reals List Lra Lia Arith ZArith Bool.
From Verif Require Import CtModel CtSpec RingSum SpaceModel SpaceSpec DiscModel DiscSpec DiscExample Disc2Model Disc2Spec Disc2Example.
From Verif Require Import TriModel TriSpec TriExample TdiscModel TdiscSpec TdiscProofs TdiscProofs2 TdiscProofs3 TdiscProofs4.
Import ListNotations.
Open Scope R_scope.
Notation mid := DiscExample.mid.

Definition exA : point := (0, 0).
Definition exB : point := (2, 0).
Definition exC : point := (0, 2).
Example tri_area : 0 < area2 exA exB exC.
Proof. unfold area2, exA, exB, exC. cbn. lra. Qed.
Lemma exN0_sym : sym_nodes 2 exN0.
Proof. unfold sym_nodes, exN0. repeat split. intros k Hk. destruct k as [|[|[|k]]]; [| | |lia]; cbn; ring. Qed.
Lemma exN1_sym : sym_nodes 1 exN1.
Proof. unfold sym_nodes, exN1. repeat split. intros k Hk. destruct k as [|[|k]]; [| |lia]; cbn; ring. Qed.
Lemma two_sym : sym_rule two.
Proof. unfold sym_rule, two. cbn. rewrite Ropp_involutive. reflexivity. Qed.
Lemma mid_sym : sym_rule mid.
Proof. unfold sym_rule, mid. cbn. rewrite Ropp_0. reflexivity. Qed.
Notation exF := (tct_mapping exA exB exC).
Notation exJ := (tct_Jacobian_matrix exA exB exC).
Lemma tri_along_f (b : bool) : integrates_along2 (mkGrid2 exN0 exN0 two two) b (through2 exf2 exF).
Proof.
  intros a. destruct b; cbn [hx hy sx sy along2 comp fst snd];
    [apply (two_exact _ _ (3 / 2 * (1 + a)) (3 / 2 * (1 + a)))|apply (two_exact _ _ (3 / 2 * (1 + a)) (3 / 2 * (1 + a)))];
    intros; unfold through2, exf2; rewrite tct_x; cbn; field.
Qed.
(* v = (-Y, 0) with rotation 1 *)
Lemma tri_circ (b : bool) : integrates_along2 (mkGrid2 exN0 exN0 mid mid) (negb b) (circ exF exJ exv2 b).
Proof.
  intros a. destruct b; cbn [negb hx hy sx sy];
   [eapply (mid_exact _ _ (- (1 + a) / 4) 0 ((1 + a) / 4))|eapply (mid_exact _ _ (- (1 - a) / 4) (- (1 - a) / 2) (- (1 - a) / 4))];
    intros; unfold circ, dot2, mcol, comp, through2, value2, exv2; rewrite tct_J, ?tct_x, tct_y; cbn; field.
Qed.
Lemma tri_agree (b : bool) : agree_along2 exN0 exN0 two two mid mid b (circ exF exJ exv2 b).
Proof.
  intros a. destruct b;
   [eapply (two_mid _ _ (- (1 - a * a) / 4) (- (1 - a * a) / 4))|eapply (two_mid _ _ (- ((1 + a) * (1 + a)) / 4) ((1 + a) * (1 + a) / 4))];
    intros; unfold circ, dot2, mcol, comp, through2, value2, exv2; rewrite tct_J, ?tct_x, tct_y; cbn; field.
Qed.
(* u = (0, Y) with divergence 1 *)
Lemma tri_flux (b : bool) : integrates_along2 (mkGrid2 exN0 exN0 mid mid) (negb b) (flux exF exJ exu2 b) /\
  agree_along2 exN0 exN0 two two mid mid b (flux exF exJ exu2 b).
Proof.
  split; intros a; destruct b; cbn [negb hx hy sx sy];
   [eapply (mid_exact _ _ (- (1 + a) / 4) 0 ((1 + a) / 4))|eapply (mid_exact _ _ (- (1 - a) / 4) (- (1 - a) / 2) (- (1 - a) / 4))
   |eapply (two_mid _ _ (- (1 - a * a) / 4) (- (1 - a * a) / 4))|eapply (two_mid _ _ (- ((1 + a) * (1 + a)) / 4) ((1 + a) * (1 + a) / 4))];
    intros; unfold flux, cross2, mcol, comp, through2, value2, exu2; rewrite tct_J, ?tct_x, tct_y; cbn; field.
Qed.
(* two triangles meeting in an edge which is the third of the first one and the second of the other one *)
Definition kite_pts : list point := [(0, 0); (1, 0); (0, 1); (1, 1)].
Definition kite_cells : list tri := [(0, 1, 2); (1, 3, 2)]%nat.
Definition kite_sides : smap := [[SB 5; SB 5; SI 1 false 1]; [SB 5; SI 0 false 2; SB 5]].
Lemma kite_mesh : make_mesh sq_conds kite_pts kite_cells = Some (kite_cells, kite_sides).
Proof.
  assert (E : oriented_cells kite_pts kite_cells = Some kite_cells).
  { unfold oriented_cells, kite_cells, kite_pts, oriented, orientation. cbn [map nth_error fst snd].
    repeat match goal with |- context [Rlt_dec ?a ?b] => destruct (Rlt_dec a b); try lra end. reflexivity. }
  unfold make_mesh. rewrite E. vm_compute. reflexivity.
Qed.
Lemma kite_apart : no_overlap kite_pts kite_cells.
Proof.
  intros c j [x y] Hc Hj N. cbn in Hc, Hj.
  destruct c as [|[|c]], j as [|[|j]]; try lia; cbn; unfold area2, kite_pts; cbn; intros (H1 & H2 & H3) (K1 & K2 & K3); lra.
Qed.
Definition exw : (R -> R -> R) * (R -> R -> R) := (fun x y => x * x, fun _ _ => 0).
Lemma kite_differ : exists A m, numbering1 Inner 1 kite_sides = Some (A, m) /\ num1 Inner 1 A 0 0 = num1 Inner 1 A 1 1 /\
  nth 0 (tdisc1 Inner 1 exN1 mid two kite_sides 0 (tct_mapping (0,0) (1,0) (0,1)) (tct_Jacobian_matrix (0,0) (1,0) (0,1)) exw) 0 <>
  nth 1 (tdisc1 Inner 1 exN1 mid two kite_sides 1 (tct_mapping (1,0) (1,1) (0,1)) (tct_Jacobian_matrix (1,0) (1,1) (0,1)) exw) 0.
Proof.
  destruct (numbering1 Inner 1 kite_sides) as [[A m]|] eqn:E; [|vm_compute in E; discriminate].
  exists A, m. split; [reflexivity|]. split; [vm_compute in E; injection E as <- <-; vm_compute; reflexivity|]. clear A m E.
  assert (H : forall c F J e, edge_ok 1 e -> nth (Z.to_nat (dofe Inner 1 e)) (tdisc1 Inner 1 exN1 mid two kite_sides c F J exw) 0 = _)
    by (intros c F J e He; exact (tdisc1_at 1 exN1 mid two eq_refl Inner kite_sides c F J exw e He)).
  pose proof (H 0%nat (tct_mapping (0,0) (1,0) (0,1)) (tct_Jacobian_matrix (0,0) (1,0) (0,1)) (Dx 0 1)) as H1.
  pose proof (H 1%nat (tct_mapping (1,0) (1,1) (0,1)) (tct_Jacobian_matrix (1,0) (1,1) (0,1)) (Dy 0 0)) as H2.
  change (Z.to_nat (dofe Inner 1 (Dx 0 1))) with 0%nat in H1. change (Z.to_nat (dofe Inner 1 (Dy 0 0))) with 1%nat in H2.
  rewrite H1, H2 by (cbn; lia). 
  replace (transition Inner 1 kite_sides 0 0) with 1%Z by (vm_compute; reflexivity).
  replace (transition Inner 1 kite_sides 1 1) with (-1)%Z by (vm_compute; reflexivity).
  unfold int_edge, int2_inner. cbn [edge_cell along2 map fst]. unfold quad2, circ, dot2, mcol, comp, through2, value2, exw, factor_rule, rsum, mid, two.
  cbn [fst snd combine map fold_right hx hy sx sy nth exN1]. rewrite !tct_J, !tct_x. cbn [fst snd]. lra.
Qed.
Lemma two_rules : exists conds pts cells0 cells M p n r0 r1 v A m c k c' k',
  let F c := tct_mapping (corner_pt pts cells c 0) (corner_pt pts cells c 1) (corner_pt pts cells c 2) in
  let J c := tct_Jacobian_matrix (corner_pt pts cells c 0) (corner_pt pts cells c 1) (corner_pt pts cells c 2) in
  make_mesh conds pts cells0 = Some (cells, M) /\ no_overlap pts cells /\ (1 <= p)%nat /\ sym_nodes p n /\ sym_rule r0 /\ sym_rule r1 /\
  numbering1 Inner p M = Some (A, m) /\ (c < length cells)%nat /\ (c' < length cells)%nat /\ (k < tnb1 p)%nat /\ (k' < tnb1 p)%nat /\
  num1 Inner p A c k = num1 Inner p A c' k' /\
  nth k (tdisc1 Inner p n r0 r1 M c (F c) (J c) v) 0 <> nth k' (tdisc1 Inner p n r0 r1 M c' (F c') (J c') v) 0.
Proof.
  destruct kite_differ as (A & m & H0 & H1 & H2).
  exists sq_conds, kite_pts, kite_cells, kite_cells, kite_sides, 1%nat, exN1, mid, two, exw, A, m, 0%nat, 0%nat, 1%nat, 1%nat. cbv zeta.
  split; [exact kite_mesh|]. split; [exact kite_apart|]. split; [lia|]. split; [exact exN1_sym|]. split; [exact mid_sym|]. split; [exact two_sym|].
  split; [exact H0|]. split; [cbn; lia|]. split; [cbn; lia|]. split; [cbn; lia|]. split; [cbn; lia|]. split; [exact H1|exact H2].
Qed.
