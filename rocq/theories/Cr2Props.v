(* C150: cross products in the plane.  C151: caches of triangular forms. *)
From Coq Require Import Reals List Lia Lra Arith ZArith Bool.
From Verif Require Import TfiModel TfiSpec CtModel CtSpec RingSum SpaceSpec DiscModel DiscSpec Disc2Model Disc2Spec Disc2Example ReconModel ReconSpec CrossModel CrossSpec CrossProofs2.
From Verif Require ReconExample TreconExample.
From Verif Require Import TriModel TriSpec TriExample TdiscModel TdiscSpec TdiscExample TreconModel TreconSpec Rec2Model Rec2Spec Rec2Example.
From Verif Require Import Cr2Model Cr2Spec Cr2Proofs Cr2Proofs2 Cr2Example.
Import ListNotations.
Open Scope R_scope.

(* the array of an element, applied to three cochains, is the integral of
   (w x u) . e, for w a 0- or 2-form and u, e of either orientation *)
Theorem C150_integral : forall r0 r1 e, length (fst r0) = length (snd r0) -> length (fst r1) = length (snd r1) -> regular e (fst r0) (fst r1) -> orth_ok e (fst r0) (fst r1) ->
  forall k ou oe sw su se cw cu ce w u v,
  scalar_at k sw (fst r0) (fst r1) (el_J e) cw w -> vector_at ou su (fst r0) (fst r1) (el_J e) cu u -> vector_at oe se (fst r0) (fst r1) (el_J e) ce v ->
  CrossSpec.tri (cross_2d k ou oe sw su se r0 r1 e) cw cu ce = triple2 r0 r1 (el_J e) w u v.
Proof. exact cross_2d_ok. Qed.
Print Assumptions C150_integral.
(* 3 X times (0, Y) x (-Y, 0) on the element X = x + x y, Y = 2 y *)
Example C150_integral_ex : CrossSpec.tri (cross_2d sk0 Outer Inner rs rs rs pos3 pos3 re) rc0 rc1o rc1 =
  triple2 pos3 pos3 exJ2 (through2 exf2 exF2) (through2 (Disc2Spec.value2 exu2) exF2) (through2 (Disc2Spec.value2 exv2) exF2).
Proof. exact (cross_2d_ok pos3 pos3 re eq_refl eq_refl re_regular (re_orth _ _) sk0 Outer Inner rs rs rs _ _ _ _ _ _ ex_scalar ex_outer ex_inner). Qed.
Example C150_integral_ex2 : CrossSpec.tri (cross_2d sk2 Inner Outer rs rs rs pos3 pos3 re) rc2 rc1 rc1o =
  triple2 pos3 pos3 exJ2 (fun _ _ => 1) (through2 (Disc2Spec.value2 exv2) exF2) (through2 (Disc2Spec.value2 exu2) exF2).
Proof. exact (cross_2d_ok pos3 pos3 re eq_refl eq_refl re_regular (re_orth _ _) sk2 Inner Outer rs rs rs _ _ _ _ _ _ ex_one ex_inner ex_outer). Qed.

(* the same on a triangle *)
Theorem C150_triangle : forall r0 r1 J M c, length (fst r0) = length (snd r0) -> length (fst r1) = length (snd r1) ->
  on_grid2 (fst r0) (fst r1) (fun x y => det2 (J x y) <> 0) -> forall ou oe Pw Pu Pe cw cu ce w u v,
  tscalar_at Pw (fst r0) (fst r1) cw w -> tvector_at ou Pu M c (fst r0) (fst r1) J cu u -> tvector_at oe Pe M c (fst r0) (fst r1) J ce v ->
  CrossSpec.tri (cross_tri ou oe Pw Pu Pe M r0 r1 J c) cw cu ce = triple2 r0 r1 J w u v.
Proof. exact cross_tri_ok. Qed.
Print Assumptions C150_triangle.
Example C150_triangle_ex :
  let F := tct_mapping exA exB exC in let J := tct_Jacobian_matrix exA exB exC in
  CrossSpec.tri (cross_tri Outer Inner P2 P2 P2 sq_sides pos3 pos3 J 1) TreconExample.tc0 TreconExample.tc1o TreconExample.tc1 =
  triple2 pos3 pos3 J (through2 exf2 F) (through2 (Disc2Spec.value2 TreconExample.tw) F) (through2 (Disc2Spec.value2 TreconExample.tv) F).
Proof.
  cbv zeta. apply cross_tri_ok; [reflexivity|reflexivity|exact TreconExample.pos3_nonzero| | |]; (split; [reflexivity|]); intros x y _ _;
    [apply TreconExample.tri_hat0|apply TreconExample.tri_hat1o|apply TreconExample.tri_hat1].
Qed.

(* the arrays have the numbers of dofs, and the matrices for given w or u are
   those of the integral *)
Theorem C150_matrices : forall k ou oe sw su se r0 r1 e cw cu ce,
  length cw = length (cells (deg2 sw) (match k with sk0 => nodes2 | sk2 => faces2 end)) ->
  length cu = length (cells (deg2 su) (edges2 ou)) -> length ce = length (cells (deg2 se) (edges2 oe)) ->
  let A := cross_2d k ou oe sw su se r0 r1 e in
  (bilinear (out_2M1 A cw (numv ou su) (numv oe se)) ce cu = CrossSpec.tri A cw cu ce /\ has_shape (out_2M1 A cw (numv ou su) (numv oe se)) (length ce) (length cu)) /\
  (bilinear (out_2M0 A cu (numv oe se)) ce cw = CrossSpec.tri A cw cu ce /\ has_shape (out_2M0 A cu (numv oe se)) (length ce) (length cw)).
Proof. exact cross_2d_matrices. Qed.
Print Assumptions C150_matrices.
Example C150_matrices_ex : has_shape (out_2M0 (cross_2d sk0 Outer Inner rs rs rs pos3 pos3 re) rc1o (numv Inner rs)) 12 9.
Proof. exact (proj2 (proj2 (cross_2d_matrices sk0 Outer Inner rs rs rs pos3 pos3 re rc0 rc1o rc1 eq_refl eq_refl eq_refl))). Qed.

(* (w x u) . v = - (w x v) . u: the matrix for given w is skew *)
Theorem C150_skew : forall k o sw s r0 r1 e cw c c',
  length (fst r0) = length (snd r0) -> length (fst r1) = length (snd r1) -> regular e (fst r0) (fst r1) -> orth_ok e (fst r0) (fst r1) ->
  length cw = length (cells (deg2 sw) (match k with sk0 => nodes2 | sk2 => faces2 end)) -> length c = length (cells (deg2 s) (edges2 o)) -> length c' = length (cells (deg2 s) (edges2 o)) ->
  let A := out_2M1 (cross_2d k o o sw s s r0 r1 e) cw (numv o s) (numv o s) in bilinear A c c' = - bilinear A c' c.
Proof. exact cross_2d_skew. Qed.
Print Assumptions C150_skew.
(* so that no work is done *)
Example C150_skew_ex : bilinear (out_2M1 (cross_2d sk0 Inner Inner rs rs rs pos3 pos3 re) rc0 (numv Inner rs) (numv Inner rs)) rc1 rc1 = 0.
Proof. pose proof (cross_2d_skew sk0 Inner rs rs pos3 pos3 re rc0 rc1 rc1 eq_refl eq_refl re_regular (re_orth _ _) eq_refl eq_refl eq_refl) as H. cbv zeta in H. lra. Qed.

(* for a 0-form and two vectors of one orientation the array does not depend on
   the metric of the element *)
Theorem C150_metric_free : forall o sw su se r0 r1 e e' cw cu ce,
  length (fst r0) = length (snd r0) -> length (fst r1) = length (snd r1) ->
  regular e (fst r0) (fst r1) -> orth_ok e (fst r0) (fst r1) -> regular e' (fst r0) (fst r1) -> orth_ok e' (fst r0) (fst r1) ->
  length cw = length (cells (deg2 sw) nodes2) -> length cu = length (cells (deg2 su) (edges2 o)) -> length ce = length (cells (deg2 se) (edges2 o)) ->
  CrossSpec.tri (cross_2d sk0 o o sw su se r0 r1 e) cw cu ce = CrossSpec.tri (cross_2d sk0 o o sw su se r0 r1 e') cw cu ce.
Proof. exact cross_2d_metric_free. Qed.
Print Assumptions C150_metric_free.
Example C150_metric_free_ex : CrossSpec.tri (cross_2d sk0 Outer Outer rs rs rs pos3 pos3 re) rc0 rc1o rcw = CrossSpec.tri (cross_2d sk0 Outer Outer rs rs rs pos3 pos3 ru) rc0 rc1o rcw.
Proof.
  apply cross_2d_metric_free; try reflexivity; [exact re_regular|apply re_orth| |].
  - intros x y _ _. unfold det2, cross2, mcol, comp. cbn. lra.
  - intros _ x y _ _. split; reflexivity.
Qed.

(* mass matrices of triangular forms from the cache, in any sequence of
   requests, are those of the element asked for *)
Theorem C151_mass0 : forall pts cls els P r0 r1 cs, length (fst r0) = length (snd r0) -> length (fst r1) = length (snd r1) -> shapes_tell pts cls cs ->
  Forall2 (fun c A => forall a b, bilinear A a b = tquad r0 r1 (fun x y => det2 (cellJ pts cls c x y) * (that0 P a x y * that0 P b x y)))
    cs (mass0_requests pts cls els P r0 r1 cs).
Proof. exact mass0_integrals. Qed.
Print Assumptions C151_mass0.
(* cells 0 and 2 share one matrix *)
Example C151_mass0_ex : Forall2 (fun c A => forall a b, bilinear A a b = tquad pos3 pos3 (fun x y => det2 (cellJ mx_pts mx_cells c x y) * (that0 P2 a x y * that0 P2 b x y)))
    [0; 1; 2; 0]%nat (mass0_requests mx_pts mx_cells [0; 1; 2; 3]%nat P2 pos3 pos3 [0; 1; 2; 0]%nat).
Proof. apply mass0_integrals; [reflexivity|reflexivity|]. apply lattice_shapes_tell, mx_lattice. Qed.
Theorem C151_mass1 : forall pts cls M els o P r0 r1 cs, length (fst r0) = length (snd r0) -> length (fst r1) = length (snd r1) -> shapes_tell pts cls cs ->
  (forall c, In c cs -> on_grid2 (fst r0) (fst r1) (fun x y => det2 (cellJ pts cls c x y) <> 0)) ->
  Forall2 (fun c A => forall a b u v,
    on_grid2 (fst r0) (fst r1) (fun x y => tpulls1 o (cellJ pts cls c x y) (u x y) (fun d => that1 o P M c a d x y)) ->
    on_grid2 (fst r0) (fst r1) (fun x y => tpulls1 o (cellJ pts cls c x y) (v x y) (fun d => that1 o P M c b d x y)) ->
    bilinear A a b = tquad r0 r1 (fun x y => det2 (cellJ pts cls c x y) * dot2 (u x y) (v x y)))
    cs (mass1_requests pts cls M els o P r0 r1 cs).
Proof. exact mass1_integrals. Qed.
Print Assumptions C151_mass1.
Example C151_mass1_ex : exists A B, mass1_requests mx_pts mx_cells mx_sides [0; 1; 2; 3]%nat Inner P1 q1 q1 [1; 3]%nat = [A; B] /\
  bilinear B [0; 1; 0] [0; 1; 0] = 1 / 2 * dot2 (0, - (1 / 2)) (0, - (1 / 2)).
Proof. exact mx_mass1. Qed.
Theorem C151_mass2 : forall pts cls els P r0 r1 cs, length (fst r0) = length (snd r0) -> length (fst r1) = length (snd r1) -> shapes_tell pts cls cs ->
  (forall c, In c cs -> on_grid2 (fst r0) (fst r1) (fun x y => det2 (cellJ pts cls c x y) <> 0)) ->
  Forall2 (fun c A => forall a b u v,
    on_grid2 (fst r0) (fst r1) (fun x y => tpulls2 (cellJ pts cls c x y) (u x y) (that2 P a x y)) ->
    on_grid2 (fst r0) (fst r1) (fun x y => tpulls2 (cellJ pts cls c x y) (v x y) (that2 P b x y)) ->
    bilinear A a b = tquad r0 r1 (fun x y => det2 (cellJ pts cls c x y) * (u x y * v x y)))
    cs (mass2_requests pts cls els P r0 r1 cs).
Proof. exact mass2_integrals. Qed.
Print Assumptions C151_mass2.
Example C151_mass2_ex : shapes_tell mx_pts mx_cells [1; 3]%nat /\ (forall c, In c [1; 3]%nat -> on_grid2 (fst q1) (fst q1) (fun x y => det2 (cellJ mx_pts mx_cells c x y) <> 0)) /\
  shape mx_pts mx_cells 1 = shape mx_pts mx_cells 3.
Proof.
  split; [apply lattice_shapes_tell, mx_lattice|]. split; [intros c [<-|[<-|[]]]; apply mx_regular; auto|]. rewrite !mx_shape by (cbn; tauto). reflexivity.
Qed.

(* coordinates with four decimals: cells of one indicator are translates *)
Theorem C151_lattice : forall pts cls cs, on_lattice pts -> shapes_tell pts cls cs.
Proof. exact lattice_shapes_tell. Qed.
Print Assumptions C151_lattice.
Example C151_lattice_ex : on_lattice mx_pts /\ high_similarity mx_pts mx_cells [0; 1; 2; 3]%nat = true /\ shape mx_pts mx_cells 0 <> shape mx_pts mx_cells 1.
Proof. split; [exact mx_lattice|]. split; [exact mx_similar|]. rewrite !mx_shape by (cbn; tauto). discriminate. Qed.
(* false for finer ones: a cell is given the mass matrix of one of half its size *)
Theorem C151_fine_refuted : exists conds pts given cls M els P r0 r1 c A cw,
  make_mesh conds pts given = Some (cls, M) /\ In c els /\ length (fst r0) = length (snd r0) /\ length (fst r1) = length (snd r1) /\
  nth_error (mass0_requests pts cls els P r0 r1 els) c = Some A /\
  bilinear A cw cw <> tquad r0 r1 (fun x y => det2 (cellJ pts cls c x y) * (that0 P cw x y * that0 P cw x y)).
Proof. exact fine_refuted. Qed.
Print Assumptions C151_fine_refuted.
Example C151_fine_ex : shape fn_pts mx_cells 0 = shape fn_pts mx_cells 2 /\ ~ translates fn_pts mx_cells 0 2.
Proof.
  rewrite !fn_shape by (cbn; tauto). split; [reflexivity|]. intros T. specialize (T 1%nat ltac:(lia)). cbv beta zeta in T. unfold corner, at_point, fn_pts, fn_h in T.
  cbn [cell_at mx_cells nth vertices fst snd] in T. injection T as E1. lra.
Qed.

(* cross products of a 0-form and two vectors of one orientation: the cached
   arrays serve cells of whatever shapes *)
Theorem C151_cross : forall pts cls M els o Pw Pu Pe r0 r1 cs, length (fst r0) = length (snd r0) -> length (fst r1) = length (snd r1) ->
  (forall c, In c cs -> on_grid2 (fst r0) (fst r1) (fun x y => det2 (cellJ pts cls c x y) <> 0)) ->
  Forall2 (fun c A => forall cw cu ce w u v,
    tscalar_at Pw (fst r0) (fst r1) cw w -> tvector_at o Pu M c (fst r0) (fst r1) (cellJ pts cls c) cu u -> tvector_at o Pe M c (fst r0) (fst r1) (cellJ pts cls c) ce v ->
    CrossSpec.tri A cw cu ce = triple2 r0 r1 (cellJ pts cls c) w u v) cs (cross_requests pts cls M els o o Pw Pu Pe r0 r1 cs).
Proof. exact cross_requests_ok. Qed.
Print Assumptions C151_cross.
Example C151_cross_ex : exists A B, cross_requests mx_pts mx_cells mx_sides [0; 1; 2; 3]%nat Inner Inner P1 P1 P1 q1 q1 [1; 3]%nat = [A; B] /\
  CrossSpec.tri A ones [0; 1; 0] [0; 1; 0] = triple2 q1 q1 (cellJ mx_pts mx_cells 1) (fun _ _ => 1) (fun _ _ => (0, 1 / 2)) (fun _ _ => (0, 1 / 2)) /\
  CrossSpec.tri B ones [0; 1; 0] [0; 1; 0] = triple2 q1 q1 (cellJ mx_pts mx_cells 3) (fun _ _ => 1) (fun _ _ => (0, - (1 / 2))) (fun _ _ => (0, - (1 / 2))).
Proof. exact mx_cross. Qed.
(* but not vectors of different orientations: the key has the signs of u only *)
Theorem C151_mixed_refuted : exists conds pts given cls M els r0 r1 c cw cu ce w u v A,
  make_mesh conds pts given = Some (cls, M) /\ on_lattice pts /\ In c els /\
  on_grid2 (fst r0) (fst r1) (fun x y => det2 (cellJ pts cls c x y) <> 0) /\
  nth_error (cross_requests pts cls M els Outer Inner P1 P1 P1 r0 r1 els) c = Some A /\
  tscalar_at P1 (fst r0) (fst r1) cw w /\ tvector_at Outer P1 M c (fst r0) (fst r1) (cellJ pts cls c) cu u /\
  tvector_at Inner P1 M c (fst r0) (fst r1) (cellJ pts cls c) ce v /\
  CrossSpec.tri A cw cu ce <> triple2 r0 r1 (cellJ pts cls c) w u v.
Proof. exact mixed_refuted. Qed.
Print Assumptions C151_mixed_refuted.
Example C151_mixed_ex : minus_edges Outer mx_sides 1 = minus_edges Outer mx_sides 3 /\ minus_edges Inner mx_sides 1 = [] /\ minus_edges Inner mx_sides 3 = [1%nat].
Proof. repeat split. Qed.
