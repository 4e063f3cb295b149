(** Proofs about the Schur complement solver and the Jacobi preconditioner. *)
From Coq Require Import List Arith Bool Lia Ring.
From Verif Require Import Prelude PreludeProofs RingSum KrylovModel KrylovSpec BicProofs.
Import ListNotations.

Section Schur.
  Variable K : CRing.
  Add Ring Kr3 : (Rth K).
  Local Open Scope ring_s.
  Notation vec := (nat -> K).
  Notation mat := (nat -> nat -> K).

  Lemma mulv_mmul p q X Y (x : vec) i : mulv K q (mmul K p X Y) x i = mulv K p X (mulv K q Y x) i.
  Proof.
    unfold mulv, mmul.
    rewrite (bsum_ext _ _ _ (fun j => bsum (seq 0 p) (fun k => X i k * Y k j * x j))).
    2:{ intros j _. rewrite bsum_mul_r. reflexivity. }
    rewrite bsum_swap. apply bsum_ext. intros k _. rewrite <- bsum_mul_l. apply bsum_ext. intros j _. ring.
  Qed.
  Lemma mulv_id n X (x : vec) i : (i < n)%nat -> (forall j, (j < n)%nat -> X i j = if (i =? j)%nat then 1 else 0) -> mulv K n X x i = x i.
  Proof.
    intros Hi H. unfold mulv. rewrite <- (bsum_pick_seq K n i x Hi). apply bsum_ext. intros j Hj. apply in_seq in Hj.
    rewrite H by lia. rewrite (Nat.eqb_sym i j). destruct (j =? i)%nat; ring.
  Qed.
  Lemma mulv_ext_lt n A (x y : vec) i : (forall j, (j < n)%nat -> x j = y j) -> mulv K n A x i = mulv K n A y i.
  Proof. intros H. unfold mulv. apply bsum_ext. intros j Hj. apply in_seq in Hj. rewrite H by lia. reflexivity. Qed.
  Lemma mulv_sub n A (x y : vec) i : mulv K n A (fun j => x j - y j) i = mulv K n A x i - mulv K n A y i.
  Proof. unfold mulv. rewrite <- bsum_minus. apply bsum_ext. intros. ring. Qed.

  Variables (ne : nat) (p q : nat -> nat).
  Variables (M B C D inv_M : nat -> mat) (g h : nat -> vec).
  Variables (G1 G2 : nat -> nat -> nat) (N : nat).
  Hypothesis inv : forall e, (e < ne)%nat -> inverse_of K (p e) (M e) (inv_M e).
  Hypothesis inj : forall e i e' i', (e < ne)%nat -> (i < p e)%nat -> (e' < ne)%nat -> (i' < p e')%nat -> G1 e i = G1 e' i' -> e = e' /\ i = i'.
  Hypothesis bound : forall e i, (e < ne)%nat -> (i < q e)%nat -> (G2 e i < N)%nat.

  Notation bx := (back_x K p q B inv_M g G2).
  Notation bL := (back_L K G2).

  (** summing over the local dofs sitting at the global dof of (e,i) gives the local one *)
  Lemma pick_local (F : nat -> nat -> K) e i : (e < ne)%nat -> (i < p e)%nat ->
    bsum (seq 0 ne) (fun e' => bsum (seq 0 (p e')) (fun i' => if (G1 e' i' =? G1 e i)%nat then F e' i' else 0)) = F e i.
  Proof.
    intros He Hi. rewrite (bsum_only _ (seq 0 ne) e).
    - rewrite (bsum_only _ (seq 0 (p e)) i); [rewrite Nat.eqb_refl; reflexivity|..].
      + apply seq_NoDup.
      + apply in_seq. lia.
      + intros a Ha Na. apply in_seq in Ha. destruct (Nat.eqb_spec (G1 e a) (G1 e i)) as [E|E]; [|reflexivity].
        apply inj in E; lia.
    - apply seq_NoDup.
    - apply in_seq. lia.
    - intros a Ha Na. apply in_seq in Ha. apply bsum_0. intros b Hb. apply in_seq in Hb.
      destruct (Nat.eqb_spec (G1 a b) (G1 e i)) as [E|E]; [|reflexivity]. apply inj in E; lia.
  Qed.

  (** the local equations of the first group *)
  Definition local_eqs (u y : vec) : Prop := forall e i, (e < ne)%nat -> (i < p e)%nat ->
    mulv K (p e) (M e) (fun j => u (G1 e j)) i + mulv K (q e) (B e) (bL y e) i = g e i.
  Lemma first_group u y :
    (forall I, bsum (seq 0 ne) (fun e => bsum (seq 0 (p e)) (fun i => if (G1 e i =? I)%nat then
        bsum (seq 0 (p e)) (fun j => M e i j * u (G1 e j)) + bsum (seq 0 (q e)) (fun j => B e i j * y (G2 e j)) else 0)) =
      bsum (seq 0 ne) (fun e => bsum (seq 0 (p e)) (fun i => if (G1 e i =? I)%nat then g e i else 0))) <-> local_eqs u y.
  Proof.
    split.
    - intros H e i He Hi. specialize (H (G1 e i)).
      rewrite (pick_local (fun e i => bsum (seq 0 (p e)) (fun j => M e i j * u (G1 e j)) + bsum (seq 0 (q e)) (fun j => B e i j * y (G2 e j)))) in H by assumption.
      rewrite (pick_local g) in H by assumption. exact H.
    - intros H I. apply bsum_ext. intros e He. apply in_seq in He. apply bsum_ext. intros i Hi. apply in_seq in Hi.
      destruct (G1 e i =? I)%nat; [|reflexivity]. apply H; lia.
  Qed.
  Lemma local_eqs_back u y : local_eqs u y <-> forall e i, (e < ne)%nat -> (i < p e)%nat -> u (G1 e i) = bx y e i.
  Proof.
    unfold back_x, vminus. split.
    - intros H e i He Hi.
      rewrite (mulv_ext_lt (p e) (inv_M e) _ (fun j => mulv K (p e) (M e) (fun j => u (G1 e j)) j)).
      2:{ intros j Hj. rewrite <- (H e j He Hj). ring. }
      change (fun j => mulv K (p e) (M e) (fun j0 => u (G1 e j0)) j) with (mulv K (p e) (M e) (fun j => u (G1 e j))).
      rewrite <- mulv_mmul. symmetry. apply (mulv_id (p e) (mmul K (p e) (inv_M e) (M e)) (fun j => u (G1 e j))); [exact Hi|].
      intros j Hj. apply (inv e He i j Hi Hj).
    - intros H e i He Hi.
      rewrite (mulv_ext_lt (p e) (M e) (fun j => u (G1 e j)) (mulv K (p e) (inv_M e) (fun j => g e j - mulv K (q e) (B e) (bL y e) j))).
      2:{ intros j Hj. apply H; assumption. }
      rewrite <- mulv_mmul. rewrite mulv_id; [ring|exact Hi|]. intros j Hj. apply (inv e He i j Hi Hj).
  Qed.

  (** the reduced system *)
  Lemma reduced_row y I : mulv K N (asm_A K ne p q B C D inv_M G2 G2) y I =
    bsum (seq 0 ne) (fun e => bsum (seq 0 (q e)) (fun i => if (G2 e i =? I)%nat then mulv K (q e) (rA K p B C D inv_M e) (bL y e) i else 0)).
  Proof.
    unfold mulv at 1, asm_A.
    rewrite (bsum_ext _ _ _ (fun J => bsum (seq 0 ne) (fun e => bsum (seq 0 (q e)) (fun i => bsum (seq 0 (q e)) (fun j =>
      if ((G2 e i =? I) && (G2 e j =? J))%nat then rA K p B C D inv_M e i j * y J else 0))))).
    2:{ intros J _. rewrite <- bsum_mul_r. apply bsum_ext. intros e _. rewrite <- bsum_mul_r. apply bsum_ext. intros i _.
        rewrite <- bsum_mul_r. apply bsum_ext. intros j _. destruct ((G2 e i =? I) && (G2 e j =? J))%nat; ring. }
    rewrite bsum_swap. apply bsum_ext. intros e He. apply in_seq in He. rewrite bsum_swap. apply bsum_ext. intros i Hi.
    rewrite bsum_swap. destruct (G2 e i =? I)%nat; cbn [andb].
    - unfold mulv. apply bsum_ext. intros j Hj. apply in_seq in Hj. unfold back_L.
      rewrite <- (bsum_pick_seq K N (G2 e j) (fun J => rA K p B C D inv_M e i j * y J)).
      + apply bsum_ext. intros J _. rewrite (Nat.eqb_sym J). reflexivity.
      + apply bound; lia.
    - apply bsum_0. intros j _. apply bsum_0. reflexivity.
  Qed.
  Lemma reduced_defect y e i : 
    mulv K (q e) (rA K p B C D inv_M e) (bL y e) i - rb K p C inv_M g h e i =
    mulv K (p e) (C e) (bx y e) i + mulv K (q e) (D e) (bL y e) i - h e i.
  Proof.
    unfold rb, back_x, vminus. rewrite mulv_mmul.
    rewrite (mulv_ext_lt (p e) (C e) (mulv K (p e) (inv_M e) (fun j => g e j - mulv K (q e) (B e) (bL y e) j))
      (fun k => mulv K (p e) (inv_M e) (g e) k - mulv K (p e) (inv_M e) (mulv K (q e) (B e) (bL y e)) k)).
    2:{ intros j _. rewrite <- mulv_sub. reflexivity. }
    rewrite (mulv_sub (p e) (C e)).
    assert (E : mulv K (q e) (rA K p B C D inv_M e) (bL y e) i =
      mulv K (q e) (D e) (bL y e) i - mulv K (p e) (C e) (mulv K (p e) (inv_M e) (mulv K (q e) (B e) (bL y e))) i).
    { unfold rA. transitivity (mulv K (q e) (D e) (bL y e) i - mulv K (q e) (mmul K (p e) (mmul K (p e) (C e) (inv_M e)) (B e)) (bL y e) i).
      - unfold mulv. rewrite <- bsum_minus. apply bsum_ext. intros. ring.
      - f_equal. rewrite mulv_mmul, mulv_mmul. reflexivity. }
    rewrite E. change (mulv K (p e) (C e) (fun k => mulv K (p e) (inv_M e) (g e) k) i) with (mulv K (p e) (C e) (mulv K (p e) (inv_M e) (g e)) i).
    ring.
  Qed.
  Lemma reduced_iff y : (forall I, mulv K N (asm_A K ne p q B C D inv_M G2 G2) y I = asm_b K ne p q C inv_M g h G2 I) <->
    (forall I, bsum (seq 0 ne) (fun e => bsum (seq 0 (q e)) (fun i => if (G2 e i =? I)%nat then
        mulv K (p e) (C e) (bx y e) i + mulv K (q e) (D e) (bL y e) i else 0)) =
      bsum (seq 0 ne) (fun e => bsum (seq 0 (q e)) (fun i => if (G2 e i =? I)%nat then h e i else 0))).
  Proof.
    assert (Z : forall a b : K, a = b <-> a - b = 0).
    { intros a b. split; [intros ->; ring|]. intros H. transitivity (a - b + b); [ring|]. rewrite H. ring. }
    assert (E : forall I, mulv K N (asm_A K ne p q B C D inv_M G2 G2) y I - asm_b K ne p q C inv_M g h G2 I =
      bsum (seq 0 ne) (fun e => bsum (seq 0 (q e)) (fun i => if (G2 e i =? I)%nat then
        mulv K (p e) (C e) (bx y e) i + mulv K (q e) (D e) (bL y e) i else 0)) -
      bsum (seq 0 ne) (fun e => bsum (seq 0 (q e)) (fun i => if (G2 e i =? I)%nat then h e i else 0))).
    { intros I. rewrite reduced_row. unfold asm_b. rewrite <- !bsum_minus. apply bsum_ext. intros e _. rewrite <- !bsum_minus.
      apply bsum_ext. intros i _. destruct (G2 e i =? I)%nat; [apply reduced_defect|ring]. }
    split; intros H I; apply (proj2 (Z _ _)); [rewrite <- E|rewrite E]; apply (proj1 (Z _ _)), H.
  Qed.

  Lemma schur_ok u y : solves_blocks K ne p q M B C D g h G1 G2 u y <->
    (forall I, mulv K N (asm_A K ne p q B C D inv_M G2 G2) y I = asm_b K ne p q C inv_M g h G2 I) /\
    (forall e i, (e < ne)%nat -> (i < p e)%nat -> u (G1 e i) = bx y e i).
  Proof.
    unfold solves_blocks. rewrite first_group, local_eqs_back, reduced_iff.
    assert (S2 : (forall e i, (e < ne)%nat -> (i < p e)%nat -> u (G1 e i) = bx y e i) -> forall I,
      bsum (seq 0 ne) (fun e => bsum (seq 0 (q e)) (fun i => if (G2 e i =? I)%nat then
        bsum (seq 0 (p e)) (fun j => C e i j * u (G1 e j)) + bsum (seq 0 (q e)) (fun j => D e i j * y (G2 e j)) else 0)) =
      bsum (seq 0 ne) (fun e => bsum (seq 0 (q e)) (fun i => if (G2 e i =? I)%nat then
        mulv K (p e) (C e) (bx y e) i + mulv K (q e) (D e) (bL y e) i else 0))).
    { intros H I. apply bsum_ext. intros e He. apply in_seq in He. apply bsum_ext. intros i _.
      destruct (G2 e i =? I)%nat; [|reflexivity]. f_equal. unfold mulv at 1. apply bsum_ext. intros j Hj. apply in_seq in Hj.
      rewrite H by lia. reflexivity. }
    split.
    - intros (H1 & H2). split; [|exact H1]. intros I. rewrite <- (S2 H1). apply H2.
    - intros (H1 & H2). split; [exact H2|]. intros I. rewrite (S2 H2). apply H1.
  Qed.
End Schur.

Section Jacobi.
  Variable K : CRing.
  Add Ring Kr4 : (Rth K).
  Local Open Scope ring_s.
  Variables (SIZE n : nat) (A : nat -> nat -> nat -> K) (f : nat -> nat -> K) (reciprocal : K -> K).
  Let d := jac_diag K SIZE A reciprocal.
  Lemma invM_row r (x : nat -> K) i : (i < n)%nat -> bsum (seq 0 n) (fun k => invM K SIZE A reciprocal r i k * x k) = d i * x i.
  Proof.
    intros Hi. rewrite <- (bsum_pick_seq K n i (fun k => d i * x k) Hi). apply bsum_ext. intros k _. unfold invM.
    rewrite (Nat.eqb_sym i k). destruct (k =? i)%nat; [reflexivity|ring].
  Qed.
  Lemma prec_A_ok i j : (i < n)%nat -> whole_A K SIZE (prec_A K SIZE A reciprocal n) i j = d i * whole_A K SIZE A i j.
  Proof.
    intros Hi. unfold whole_A, prec_A, mmul. rewrite <- bsum_mul_l. apply bsum_ext. intros r _. apply (invM_row r (fun k => A r k j) i Hi).
  Qed.
  Lemma prec_f_ok i : (i < n)%nat -> whole_f K SIZE (prec_f K SIZE A f reciprocal n) i = d i * whole_f K SIZE f i.
  Proof.
    intros Hi. unfold whole_f, prec_f, mulv. rewrite <- bsum_mul_l. apply bsum_ext. intros r _. apply (invM_row r (f r) i Hi).
  Qed.
  Lemma prec_solves x : (forall i, (i < n)%nat -> reciprocal (whole_A K SIZE A i i) * whole_A K SIZE A i i = 1) ->
    (solves K n (whole_A K SIZE (prec_A K SIZE A reciprocal n)) (whole_f K SIZE (prec_f K SIZE A f reciprocal n)) x <->
     solves K n (whole_A K SIZE A) (whole_f K SIZE f) x).
  Proof.
    intros HR. unfold solves.
    assert (E : forall i, (i < n)%nat -> mulv K n (whole_A K SIZE (prec_A K SIZE A reciprocal n)) x i = d i * mulv K n (whole_A K SIZE A) x i).
    { intros i Hi. unfold mulv. rewrite <- bsum_mul_l. apply bsum_ext. intros j _. rewrite prec_A_ok by exact Hi. ring. }
    split; intros H i Hi; specialize (H i Hi).
    - rewrite E, prec_f_ok in H by exact Hi. specialize (HR i Hi). change (reciprocal (whole_A K SIZE A i i)) with (d i) in HR.
      transitivity (d i * whole_A K SIZE A i i * mulv K n (whole_A K SIZE A) x i); [rewrite HR; ring|].
      transitivity (whole_A K SIZE A i i * (d i * mulv K n (whole_A K SIZE A) x i)); [ring|]. rewrite H.
      transitivity (d i * whole_A K SIZE A i i * whole_f K SIZE f i); [ring|]. rewrite HR. ring.
    - rewrite E, prec_f_ok by exact Hi. rewrite H. reflexivity.
  Qed.
  Lemma prec_rows : (forall r r' i j, invM K SIZE A reciprocal r i j = invM K SIZE A reciprocal r' i j) /\
    forall i j, (i < n)%nat ->
    whole_A K SIZE (prec_A K SIZE A reciprocal n) i j = reciprocal (whole_A K SIZE A i i) * whole_A K SIZE A i j /\
    whole_f K SIZE (prec_f K SIZE A f reciprocal n) i = reciprocal (whole_A K SIZE A i i) * whole_f K SIZE f i.
  Proof.
    split; [reflexivity|]. intros i j Hi. split; [apply prec_A_ok, Hi|apply prec_f_ok, Hi].
  Qed.
End Jacobi.
