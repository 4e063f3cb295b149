(* Cases for the theorems about metric types. *)
From Coq Require Import Reals List ZArith Bool Arith Lra Lia QArith Qcanon Qreals.
From Verif Require Import TfiModel TfiSpec SpacingModel CtModel CtSpec CtProofs CtProofs2 MarkModel MarkSpec MarkProofs
  MarkProofs2 CtExample.
Import ListNotations.
Open Scope R_scope.

Lemma elements_cached : forall fmt T E M O elems x y z, prints fmt -> NoDup elems ->
  (forall i, In i elems -> region_fits (T i) (M i) /\ orth_lengths (T i) (E i) (all_grid 3)) ->
  forall req, incl req elems ->
    cache_run mat3 (fun i => elem_mark fmt (T i) i (E i)) (fun i => ct_Jacobian_matrix (M i) (O i) (E i) x y z) elems [] req
    = map (fun i => ct_Jacobian_matrix (M i) (O i) (E i) x y z) req.
Proof.
  intros fmt T E M O elems x y z P N H. apply (proj2 (cache_iff _ _ _ elems N)).
  exact (elements_faithful fmt T E M O elems x y z P H).
Qed.
Lemma sides_cached : forall fmt l E S elems a b, prints fmt -> NoDup elems ->
  (forall i, In i elems -> on_grid 5 (fst (sizes2 (S i) (e_d (E i)))) /\ on_grid 5 (snd (sizes2 (S i) (e_d (E i))))) ->
  forall req, incl req elems ->
    cache_run mat32 (fun i => trace_mark fmt (rOrth l) i (E i) (S i)) (fun i => side_J l (E i) (S i) a b) elems [] req
    = map (fun i => side_J l (E i) (S i) a b) req.
Proof.
  intros fmt l E S elems a b P N H. apply (proj2 (cache_iff _ _ _ elems N)).
  exact (sides_faithful fmt l E S elems a b P H).
Qed.

Lemma grid_case : all_grid 3 (/ 2, / 4, / 8) /\ ~ on_grid 3 (/ 3).
Proof.
  split.
  - repeat split; [exists 500%Z|exists 250%Z|exists 125%Z]; cbn; lra.
  - intros (n & H). cbn in H. assert (E : 1000 = IZR (3 * n)) by (rewrite mult_IZR; lra).
    apply eq_IZR in E. lia.
Qed.
Lemma halves_marks : forall fmt, prints fmt ->
  elem_mark fmt (rOrth (1, 1, 1)) 0 (fst halves) = mYZ 10000 5000.
Proof.
  intros fmt P.
  assert (A : forall k n x, x * 10 ^ k = IZR n -> fmt k x = n) by (intros; apply print_grid; assumption).
  assert (R1 : rnd fmt 6 1 = 1) by (apply rnd_grid; [exact P|]; exists 1000000%Z; cbn; lra).
  assert (R2 : rnd fmt 6 (/ 2) = / 2) by (apply rnd_grid; [exact P|]; exists 500000%Z; cbn; lra).
  unfold elem_mark, halves. cbn [fst e_d lengths]. rewrite !Rmult_1_r. unfold orth_mark. cbv zeta. rewrite R1, R2.
  destruct (Req_EM_T (/ 2) 1) as [X|_]; [exfalso; lra|].
  destruct (Req_EM_T 1 1) as [_|X]; [|exfalso; apply X; reflexivity].
  rewrite (A 4%nat 10000%Z 1) by (cbn; lra). rewrite (A 4%nat 5000%Z (/ 2)) by (cbn; lra). reflexivity.
Qed.

(* Cuboid() with its default region_layout (2, 2, 2): the sides of the regions have length 1/2 *)
Lemma cuboid_default : forall fmt a b, prints fmt ->
  constant_Jacobian (trace_mark fmt (rOrth (/ 2, / 2, / 2)) 0 whole tN) = Some (/ 4) /\
  sqrt (tr_metric (side_J (/ 2, / 2, / 2) whole tN a b)) = / 16.
Proof.
  intros fmt a b P. split.
  - rewrite constant_value; [cbn; f_equal; lra|exact P| |]; exists 100000%Z; cbn; lra.
  - rewrite side_area; [cbn; lra| |]; intro c; destruct c; cbn; lra.
Qed.
