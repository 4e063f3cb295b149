(* Properties C152, C153. *)
From Coq Require Import Reals List Lia Lra Arith ZArith.
From Verif Require Import TfiModel TfiSpec CtModel CtSpec RingSum SpaceModel SpaceSpec DiscModel DiscSpec DiscExample ReconModel ReconSpec ReconExample.
From Verif Require Import CrossModel CrossSpec CrossExample VdModel VdSpec VdProofs VdProofs2 VdExample.
Import ListNotations.
Open Scope R_scope.

Theorem C152_zero_forms : forall k g s F J orth c v, form_at (kd k) s (grid_mesh g) J c (through (value v) F) -> on_grid (grid_mesh g) (fun x y z => det3 (J x y z) <> 0) ->
  (orth = true -> on_grid (grid_mesh g) (fun x y z => diagonal (J x y z))) ->
  proj3 k s (grid_mesh g) J orth c = (disc0 (gx g) (gy g) (gz g) F (v cX), disc0 (gx g) (gy g) (gz g) F (v cY), disc0 (gx g) (gy g) (gz g) F (v cZ)).
Proof. exact proj3_ok. Qed.
Print Assumptions C152_zero_forms.
Example C152_zero_forms_ex : proj3 vk2 sp (grid_mesh exg) exJ2 true exc2' = ([-2; 0; 2; -2; 0; 2; -2; 0; 2; -2; 0; 2], repeat 0 12, repeat 0 12).
Proof.
  rewrite (proj3_ok vk2 exg sp exF2 exJ2 true exc2' exu2 (v_form _) (v_det _) (fun _ => v_diag _)). unfold disc0, mesh3, at_map, exu2, exF2. cbn.
  replace (2 * -1) with (-2) by ring. replace (2 * 0) with 0 by ring. replace (2 * 1) with 2 by ring. reflexivity.
Qed.

Theorem C152_inner_products : forall inv so s q J orth, rules_ok q -> nonzero_det q J -> orth_ok q J orth ->
  inverse_of (inner2 true orth so so q J) (inv (inner2 true orth so so q J)) (length (cells (degrees so) faces3)) ->
  forall c v w, form_at k1 s (qmesh q) J c v -> form_at k2 so (qmesh q) J (VdModel.proj2 inv so s q J orth c) w ->
  forall d t, form_at k2 so (qmesh q) J d t ->
  quad3 q (fun x y z => det3 (J x y z) * dot (t x y z) (w x y z)) = quad3 q (fun x y z => det3 (J x y z) * dot (t x y z) (v x y z)).
Proof. exact proj2_ok. Qed.
Print Assumptions C152_inner_products.
Example C152_inner_products_ex : quad3 pq (fun x y z => det3 (exJ2 x y z) * dot (1, 2, 3) (1, 2, 3)) = 224.
Proof.
  etransitivity; [exact (proj2_ok pinv usp usp pq exJ2 true ltac:(repeat split) (v_det _) (fun _ => v_diag _) p_inverse pc1 (fun _ _ _ => (1, 2, 3)) (fun _ _ _ => (1, 2, 3)) (p_form1 _)
    ltac:(rewrite p_exact; apply p_form2) pc2 (fun _ _ _ => (1, 2, 3)) (p_form2 _))|].
  unfold quad3, pq, rsum, det3, exJ2, dot, csum; cbn. ring.
Qed.

Theorem C152_kept : forall inv so s q J orth, rules_ok q -> nonzero_det q J -> orth_ok q J orth ->
  inverse_of (inner2 true orth so so q J) (inv (inner2 true orth so so q J)) (length (cells (degrees so) faces3)) ->
  forall c v d, form_at k1 s (qmesh q) J c v -> form_at k2 so (qmesh q) J d v -> VdModel.proj2 inv so s q J orth c = d.
Proof. exact proj2_exact. Qed.
Print Assumptions C152_kept.
Example C152_kept_ex : VdModel.proj2 pinv usp usp pq exJ2 true pc1 = [4; 4; 16; 16; 24; 24].
Proof. exact p_exact. Qed.

Theorem C153_tensor : forall g s, grid_ok g -> basis3_of g s -> rules_exact g s -> forall F J, jacobian_of F J ->
  forall k m orth c v D, (exists E, E10 (degrees s) = Some E) -> form_at (kd k) s (grid_mesh g) J c (through (value v) F) ->
  on_grid (grid_mesh g) (fun x y z => det3 (J x y z) <> 0) -> on_grid m (fun x y z => det3 (J x y z) <> 0) ->
  (orth = true -> on_grid (grid_mesh g) (fun x y z => diagonal (J x y z)) /\ on_grid m (fun x y z => diagonal (J x y z))) -> inside_grid m ->
  in_space0 s F v -> deriv_inside F v D ->
  exists T, grad_tensor k s (grid_mesh g) m J orth c = Some T /\ Forall2 (fun p t => forall i j, ent t i j = at_pt (through (D i j) F) p) (points m) T.
Proof. exact grad_tensor_ok. Qed.
Print Assumptions C153_tensor.
Example C153_tensor_ex : exists T, grad_tensor vk2 sp (grid_mesh exg) vm exJ2 true exc2' = Some T /\
  Forall2 (fun p t => forall i j, ent t i j = at_pt (through (exD2 i j) exF2) p) (points vm) T.
Proof. exact v_tensor. Qed.

Theorem C153_split : forall G, splits G (S_of G) (O_of G).
Proof. exact split_ok. Qed.
Print Assumptions C153_split.
Theorem C153_split_only : forall G S O, splits G S O -> S = S_of G /\ O = O_of G.
Proof. exact split_unique. Qed.
Print Assumptions C153_split_only.
Example C153_split_ex : splits ((1, 3, 0), (1, 2, 0), (4, 0, 5)) ((1, 2, 2), (2, 2, 0), (2, 0, 5)) ((0, 1, -2), (-1, 0, 0), (2, 0, 0)).
Proof. split; [|split]; intros [] []; unfold ent, mrow, TfiModel.get; lra. Qed.

Theorem C153_symmetric : forall G, symm3 (so_of G).
Proof. exact so_symmetric. Qed.
Print Assumptions C153_symmetric.
Example C153_symmetric_ex : ent (so_of ((1, 3, 0), (1, 2, 0), (4, 0, 5))) cX cZ = 8.
Proof. unfold so_of, ent, mrow. cbn [S_of O_of TfiModel.get]. lra. Qed.

(* what the code computes instead of the criteria *)
Theorem C153_Q_value : forall G e, eigen3 (so_of G) e -> Q_of e = - (1 / 2) * csum (fun i => ent G i i ^ 2).
Proof. exact Q_value. Qed.
Print Assumptions C153_Q_value.
Theorem C153_Q_right : forall G e, eigen3 (so_of G) e ->
  (Q_of e = Q_crit G <-> ent G cX cY * ent G cY cX + ent G cX cZ * ent G cZ cX + ent G cY cZ * ent G cZ cY = 0).
Proof. exact Q_right_iff. Qed.
Print Assumptions C153_Q_right.
Theorem C153_never_positive : forall G e, eigen3 (so_of G) e -> Q_of e <= 0.
Proof. exact Q_never_positive. Qed.
Print Assumptions C153_never_positive.
Example C153_Q_ex : eigen3 (so_of spin) (1, -1, 0) /\ ent spin cX cY * ent spin cY cX = -1.
Proof. split; [exact spin_so|]. unfold spin, ent, mrow, TfiModel.get. ring. Qed.

Theorem C153_lambda2 : forall e, second_of e (lambda2_of e).
Proof. exact lambda2_second. Qed.
Print Assumptions C153_lambda2.
Example C153_lambda2_ex : lambda2_of (3, -1, 2) = 2.
Proof.
  unfold lambda2_of, rsort. cbn [fold_right rinsert].
  repeat match goal with |- context [Rle_dec ?a ?b] => destruct (Rle_dec a b); try lra; cbn [rinsert] end; reflexivity.
Qed.

(* with the matrix products instead of squares of entries *)
Theorem C153_trace : forall G M e, squares (S_of G) (O_of G) M -> eigen3 M e -> Q_of e = Q_crit G.
Proof. exact crit_trace. Qed.
Print Assumptions C153_trace.
Theorem C153_diagonal : forall a b c, squares (S_of ((a, 0, 0), (0, b, 0), (0, 0, c))) (O_of ((a, 0, 0), (0, b, 0), (0, 0, c))) (so_of ((a, 0, 0), (0, b, 0), (0, 0, c))).
Proof. exact diagonal_right. Qed.
Print Assumptions C153_diagonal.
Example C153_trace_ex : squares (S_of spin) (O_of spin) ((-1, 0, 0), (0, -1, 0), (0, 0, 0)) /\ eigen3 ((-1, 0, 0), (0, -1, 0), (0, 0, 0)) (-1, 0, -1).
Proof. exact (conj spin_squares spin_eigen). Qed.

(* solid body rotation *)
Theorem C153_Q_refuted : exists G e, eigen3 (so_of G) e /\ Q_crit G > 0 /\ Q_of e = 0.
Proof. exact Q_refuted. Qed.
Print Assumptions C153_Q_refuted.
Theorem C153_lambda2_refuted : exists G M e e', eigen3 (so_of G) e /\ squares (S_of G) (O_of G) M /\ eigen3 M e' /\ lambda2_of e' < 0 /\ lambda2_of e = 0.
Proof. exact lambda2_refuted. Qed.
Print Assumptions C153_lambda2_refuted.
