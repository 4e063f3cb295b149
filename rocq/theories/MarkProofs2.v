(* Proofs about MarkModel: elements, sides, constants read from marks. *)
From Coq Require Import Reals List ZArith Bool Arith Lra Lia QArith Qcanon Qreals.
From Verif Require Import TfiModel TfiSpec SpacingModel CtModel CtSpec CtProofs CtProofs2 MarkModel MarkSpec MarkProofs.
Import ListNotations.
Open Scope R_scope.

Definition diag (l : R * R * R) : mat3 :=
  match l with (x, y, z) => ((x / 2, 0, 0), (0, y / 2, 0), (0, 0, z / 2)) end.
Lemma box_ct : forall l o e x y z, ct_Jacobian_matrix (box_J l) o e x y z = diag (lengths l (e_d e)).
Proof.
  intros [[lx ly] lz] o [eo [[dx dy] dz]] x y z. unfold ct_Jacobian_matrix, box_J. cbn [e_d lengths diag row_times].
  assert (Q : forall u v, u * (v / 2) = v * u / 2) by (intros; field).
  destruct o; rewrite !Q, ?Rmult_0_r; unfold Rdiv; rewrite ?Rmult_0_l; reflexivity.
Qed.

Lemma ct_ext : forall m m' o e x y z, (forall r s t, m r s t = m' r s t) ->
  ct_Jacobian_matrix m o e x y z = ct_Jacobian_matrix m' o e x y z.
Proof. intros m m' o e x y z H. unfold ct_Jacobian_matrix. rewrite H. reflexivity. Qed.

Lemma elements_faithful : forall fmt (T : nat -> rtype) (E : nat -> Elem) (M : nat -> R -> R -> R -> mat3) O elems x y z,
  prints fmt ->
  (forall i, In i elems -> region_fits (T i) (M i) /\ orth_lengths (T i) (E i) (all_grid 3)) ->
  faithful (fun i => elem_mark fmt (T i) i (E i)) (fun i => ct_Jacobian_matrix (M i) (O i) (E i) x y z) elems.
Proof.
  intros fmt T E M O elems x y z P H i j I J Q N.
  destruct (H i I) as (Ri & Gi). destruct (H j J) as (Rj & Gj). unfold elem_mark in Q, N.
  destruct (T i) as [|l]; [exfalso; exact (N i eq_refl)|].
  destruct (T j) as [|l']; [exfalso; exact (N j Q)|]. cbn [region_fits orth_lengths] in *.
  rewrite (ct_ext _ _ _ _ _ _ _ Ri), (ct_ext _ _ _ _ _ _ _ Rj), !box_ct.
  rewrite (orth_exact fmt _ _ P Gi Gj Q). reflexivity.
Qed.

Lemma fmt_small : forall fmt k x, prints fmt -> - / 2 < x * 10 ^ k < / 2 -> fmt k x = 0%Z.
Proof.
  intros fmt k x P H. pose proof (P k x) as A. apply Rabs_le' in A.
  assert ((fmt k x < 1)%Z) by (apply lt_IZR; lra). assert ((-1 < fmt k x)%Z) by (apply lt_IZR; lra). lia.
Qed.
Lemma tiny_cube : forall fmt a, prints fmt -> 0 < a <= 4 / 10000 -> orth_mark fmt (a, a, a) = mCube 0.
Proof.
  intros fmt a P H. unfold orth_mark. cbv zeta. destruct (Req_EM_T (rnd fmt 6 a) (rnd fmt 6 a)) as [_|X]; [|congruence].
  f_equal. apply fmt_small; [exact P|]. pose proof (rnd6 fmt a P). cbn [pow]. lra.
Qed.

Definition micro : R := 4 / 10000.
Lemma micro_elements : exists lay rs ss e e',
  parse_layout [Sizes [Q2Qc 1; Q2Qc 3]; Sizes [Q2Qc 1; Q2Qc 3]; Sizes [Q2Qc 1; Q2Qc 3]] = Some (lay, rs, ss) /\
  elem_at rs ss [0%nat; 0%nat; 0%nat] = Some e /\ elem_at rs ss [1%nat; 1%nat; 1%nat] = Some e' /\
  e_d e = (/ 4, / 4, / 4) /\ e_d e' = (3 / 4, 3 / 4, 3 / 4).
Proof.
  do 5 eexists. split; [reflexivity|]. split; [reflexivity|]. split; [reflexivity|].
  assert (A : forall q, (q == 1 # 4)%Q -> Q2R q = / 4) by (intros q H; rewrite (Qeq_eqR _ _ H); unfold Q2R; cbn; lra).
  assert (B : forall q, (q == 3 # 4)%Q -> Q2R q = 3 / 4) by (intros q H; rewrite (Qeq_eqR _ _ H); unfold Q2R; cbn; lra).
  cbn [e_d]. unfold q2r. rewrite !A, !B by (vm_compute; reflexivity). split; reflexivity.
Qed.

Lemma micro_refutes : exists lay rs ss e e', let l := (micro, micro, micro) in
  parse_layout [Sizes [Q2Qc 1; Q2Qc 3]; Sizes [Q2Qc 1; Q2Qc 3]; Sizes [Q2Qc 1; Q2Qc 3]] = Some (lay, rs, ss) /\
  elem_at rs ss [0%nat; 0%nat; 0%nat] = Some e /\ elem_at rs ss [1%nat; 1%nat; 1%nat] = Some e' /\
  forall fmt, prints fmt ->
    let mk := fun i => elem_mark fmt (rOrth l) i (if Nat.eqb i 0 then e else e') in
    let val := fun i => ct_Jacobian (ct_Jacobian_matrix (box_J l) true (if Nat.eqb i 0 then e else e') 0 0 0) in
    mk 0%nat = mk 1%nat /\ val 1%nat = 27 * val 0%nat /\ 0 < val 0%nat /\
    cache_run R mk val [0%nat; 1%nat] [] [0%nat; 1%nat] = [val 0%nat; val 0%nat].
Proof.
  destruct micro_elements as (lay & rs & ss & e & e' & P & A & B & D & D').
  exists lay, rs, ss, e, e'. intro l. split; [exact P|]. split; [exact A|]. split; [exact B|].
  intros fmt F mk val.
  assert (M0 : mk 0%nat = mCube 0).
  { unfold mk, l. cbn [elem_mark Nat.eqb]. rewrite D. cbn [lengths]. apply tiny_cube; [exact F|]. unfold micro. lra. }
  assert (M1 : mk 1%nat = mCube 0).
  { unfold mk, l. cbn [elem_mark Nat.eqb]. rewrite D'. cbn [lengths]. apply tiny_cube; [exact F|]. unfold micro. lra. }
  split; [congruence|].
  assert (V0 : val 0%nat = (/ 4 * micro / 2) ^ 3).
  { unfold val, l. cbn [Nat.eqb]. rewrite box_ct, D. cbn [lengths diag ct_Jacobian]. ring. }
  assert (V1 : val 1%nat = (3 / 4 * micro / 2) ^ 3).
  { unfold val, l. cbn [Nat.eqb]. rewrite box_ct, D'. cbn [lengths diag ct_Jacobian]. ring. }
  split; [rewrite V0, V1; field|]. split; [rewrite V0; unfold micro; apply pow_lt; lra|].
  cbn [cache_run]. unfold cache_get. rewrite M0. cbn [is_id find_mark]. 
  assert (MU : multi mk [0%nat; 1%nat] (mCube 0) = true).
  { unfold multi. cbn [filter]. rewrite M0, M1. destruct (mark_dec (mCube 0) (mCube 0)); [reflexivity|congruence]. }
  rewrite MU, M1. cbn [is_id find_mark]. destruct (mark_dec (mCube 0) (mCube 0)); [reflexivity|congruence].
Qed.

(* ---- sides ---- *)
Lemma trace_mark_sizes : forall fmt l i e s, trace_mark fmt (rOrth l) i e s =
  side_mark fmt (across s) (fst (sizes2 s (e_d e))) (snd (sizes2 s (e_d e))).
Proof. intros fmt l i [o [[x y] z]] s. destruct s; reflexivity. Qed.
Lemma side_exact : forall fmt c c' d1 d2 d1' d2', prints fmt ->
  on_grid 5 d1 -> on_grid 5 d2 -> on_grid 5 d1' -> on_grid 5 d2' ->
  side_mark fmt c d1 d2 = side_mark fmt c' d1' d2' -> c = c' /\ d1 = d1' /\ d2 = d2'.
Proof.
  intros fmt c c' d1 d2 d1' d2' P A B C D H. unfold side_mark in H.
  rewrite !rnd_grid in H by (try assumption; apply (grid_up 5 1); assumption).
  injection H; intros. split; [assumption|]. split; apply (same_grid fmt 5); assumption.
Qed.
Lemma sizes2_J : forall l e e' s s' o o' a b, across s = across s' ->
  sizes2 s (e_d e) = sizes2 s' (e_d e') ->
  match full_ep s a b, full_ep s' a b with
  | (x, y, z), (x', y', z') =>
      tr_Jacobian_matrix (ct_Jacobian_matrix (box_J l) o e x y z) s =
      tr_Jacobian_matrix (ct_Jacobian_matrix (box_J l) o' e' x' y' z') s'
  end.
Proof.
  intros [[lx ly] lz] [eo [[dx dy] dz]] [eo' [[dx' dy'] dz']] s s' o o' a b A S.
  destruct (full_ep s a b) as [[x y] z]. destruct (full_ep s' a b) as [[x' y'] z']. rewrite !box_ct.
  destruct s, s'; cbn [across] in A; try discriminate A; cbn [sizes2 e_d] in S; injection S as -> ->; reflexivity.
Qed.
Lemma sides_faithful : forall fmt l (E : nat -> Elem) (S : nat -> tside) elems a b, prints fmt ->
  (forall i, In i elems -> on_grid 5 (fst (sizes2 (S i) (e_d (E i)))) /\ on_grid 5 (snd (sizes2 (S i) (e_d (E i))))) ->
  faithful (fun i => trace_mark fmt (rOrth l) i (E i) (S i)) (fun i => side_J l (E i) (S i) a b) elems.
Proof.
  intros fmt l E S elems a b P H i j I J Q N. cbv beta in Q. rewrite !trace_mark_sizes in Q.
  destruct (H i I) as (A1 & A2). destruct (H j J) as (B1 & B2).
  destruct (side_exact _ _ _ _ _ _ _ P A1 A2 B1 B2 Q) as (C & D1 & D2). unfold side_J.
  pose proof (sizes2_J l (E i) (E j) (S i) (S j) true true a b C) as K.
  assert (Z : sizes2 (S i) (e_d (E i)) = sizes2 (S j) (e_d (E j))).
  { destruct (sizes2 (S i) _), (sizes2 (S j) _). cbn [fst snd] in *. congruence. }
  specialize (K Z). destruct (full_ep (S i) a b) as [[x y] z]. destruct (full_ep (S j) a b) as [[x' y'] z']. exact K.
Qed.

Lemma side_area : forall l e s a b, (forall c, 0 < get l c) -> (forall c, 0 < get (e_d e) c) ->
  sqrt (tr_metric (side_J l e s a b)) =
  fst (sizes2 s (e_d e)) * snd (sizes2 s (e_d e)) / 4 * (fst (sizes2 s l) * snd (sizes2 s l)).
Proof.
  intros [[lx ly] lz] [eo [[dx dy] dz]] s a b L D.
  pose proof (L cX) as L0. pose proof (L cY) as L1. pose proof (L cZ) as L2.
  pose proof (D cX) as D0. pose proof (D cY) as D1. pose proof (D cZ) as D2. cbn [get e_d] in *.
  unfold side_J. destruct (full_ep s a b) as [[x y] z]. rewrite box_ct. cbn [e_d lengths diag].
  set (r := fst _ * snd _ / 4 * _).
  assert (P : 0 <= r).
  { unfold r. destruct s; cbn [sizes2 fst snd]; apply Rlt_le;
      (apply Rmult_lt_0_compat; [apply Rmult_lt_0_compat; [apply Rmult_lt_0_compat; assumption|lra]
                                |apply Rmult_lt_0_compat; assumption]). }
  rewrite <- (sqrt_square r P). f_equal. unfold r.
  destruct s; cbn [tr_Jacobian_matrix sizes2 fst snd]; unfold tr_metric, tr_metric_matrix; field.
Qed.
Lemma constant_value : forall fmt l i e s, prints fmt ->
  on_grid 5 (fst (sizes2 s (e_d e))) -> on_grid 5 (snd (sizes2 s (e_d e))) ->
  constant_Jacobian (trace_mark fmt (rOrth l) i e s) =
    Some (fst (sizes2 s (e_d e)) * snd (sizes2 s (e_d e)) / 4).
Proof.
  intros fmt l i e s P A B. rewrite trace_mark_sizes. unfold side_mark, constant_Jacobian.
  set (u := fst _) in *. set (v := snd _) in *.
  rewrite (rnd_grid fmt 6 u P (grid_up 5 1 u A)), (rnd_grid fmt 6 v P (grid_up 5 1 v B)).
  fold (rnd fmt 5 u) (rnd fmt 5 v). rewrite !rnd_grid by assumption. reflexivity.
Qed.
Lemma constant_iff : forall fmt l i e s a b, prints fmt ->
  (forall c, 0 < get l c) -> (forall c, 0 < get (e_d e) c) ->
  on_grid 5 (fst (sizes2 s (e_d e))) -> on_grid 5 (snd (sizes2 s (e_d e))) ->
  (constant_Jacobian (trace_mark fmt (rOrth l) i e s) = Some (sqrt (tr_metric (side_J l e s a b)))
   <-> fst (sizes2 s l) * snd (sizes2 s l) = 1).
Proof.
  intros fmt l i e s a b P L D A B. rewrite (constant_value fmt l i e s P A B), side_area by assumption.
  assert (Q : 0 < fst (sizes2 s (e_d e)) * snd (sizes2 s (e_d e))).
  { pose proof (D cX). pose proof (D cY). pose proof (D cZ). destruct (e_d e) as [[x y] z].
    destruct s; cbn [sizes2 fst snd get] in *; apply Rmult_lt_0_compat; assumption. }
  set (q := fst _ * snd _) in *. set (k := _ * snd (sizes2 s l)). split.
  - intros [= E]. nra.
  - intros ->. f_equal. ring.
Qed.

Lemma regions_refute : exists l l' s, forall fmt a b, prints fmt ->
  trace_mark fmt (rOrth l) 0 whole s = trace_mark fmt (rOrth l') 1 whole s /\
  sqrt (tr_metric (side_J l whole s a b)) = / 4 /\ sqrt (tr_metric (side_J l' whole s a b)) = / 2.
Proof.
  exists (1, 1, 1), (2, 1, 1), tW. intros fmt a b P. split; [reflexivity|].
  split; (rewrite side_area; [cbn; lra| |]); intro c; destruct c; cbn; lra.
Qed.

(* ---- 2D ---- *)
Lemma constant2_close : forall fmt x y ud j, prints fmt ->
  constant_Jacobian2 (orth_mark2 fmt (x, y)) ud = Some j ->
  Rabs (j - (if ud then y else x) / 2) <= 3 / 100000.
Proof.
  intros fmt x y ud j P H. unfold orth_mark2 in H. cbv zeta in H.
  pose proof (rnd5 fmt x P). pose proof (rnd5 fmt y P).
  set (a := rnd fmt 5 x) in *. set (b := rnd fmt 5 y) in *.
  pose proof (rnd_close fmt 4 a P) as A. pose proof (rnd_close fmt 4 b P) as B. unfold rnd in A, B.
  apply abs_half in A; [|apply pow10]. apply abs_half in B; [|apply pow10].
  replace (2 * 10 ^ 4) with 20000 in * by ring.
  destruct (Req_EM_T a b) as [E|E]; cbn [constant_Jacobian2] in H; injection H as <-;
    destruct ud; apply Rabs_le; rewrite <- ?E in *; lra.
Qed.
Lemma constant2_lost : forall fmt x y, prints fmt -> 0 < x <= 4 / 100000 -> 0 < y ->
  constant_Jacobian2 (orth_mark2 fmt (x, y)) false = Some 0.
Proof.
  intros fmt x y P H Y. unfold orth_mark2. cbv zeta. pose proof (rnd5 fmt x P).
  assert (Z : fmt 4%nat (rnd fmt 5 x) = 0%Z) by (apply fmt_small; [exact P|]; cbn [pow]; lra).
  destruct (Req_EM_T _ _); cbn [constant_Jacobian2]; rewrite Z; f_equal; unfold Rdiv; ring.
Qed.
