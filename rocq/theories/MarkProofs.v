(* Proofs about MarkModel. *)
From Coq Require Import Reals List ZArith Bool Arith Lra Lia QArith Qcanon Qreals.
From Verif Require Import TfiModel TfiSpec SpacingModel CtModel CtSpec CtProofs CtProofs2 MarkModel MarkSpec.
Import ListNotations.
Open Scope R_scope.

Definition near (k : nat) (x : R) : Z := up (x * 10 ^ k - / 2).
Lemma near_prints : prints near.
Proof.
  intros k x. unfold near. set (y := x * 10 ^ k). destruct (archimed (y - / 2)) as (A & B).
  apply Rabs_le. lra.
Qed.

Lemma pow10 : forall k, 0 < 10 ^ k.
Proof. intro k. apply pow_lt. lra. Qed.
Lemma Rabs_le' : forall x d, Rabs x <= d -> - d <= x <= d.
Proof. intros x d H. unfold Rabs in H. destruct (Rcase_abs x); lra. Qed.

Lemma same_print : forall fmt k x y, prints fmt -> fmt k x = fmt k y -> Rabs (x - y) * 10 ^ k <= 1.
Proof.
  intros fmt k x y P E. pose proof (P k x) as A. pose proof (P k y) as B. rewrite E in A.
  rewrite <- (Rabs_right (10 ^ k)) by (pose proof (pow10 k); lra). rewrite <- Rabs_mult.
  replace ((x - y) * 10 ^ k) with ((IZR (fmt k y) - y * 10 ^ k) - (IZR (fmt k y) - x * 10 ^ k)) by ring.
  apply Rabs_le' in A. apply Rabs_le' in B. apply Rabs_le. lra.
Qed.
Lemma rnd_close : forall fmt k x, prints fmt -> Rabs (rnd fmt k x - x) * 10 ^ k <= / 2.
Proof.
  intros fmt k x P. pose proof (P k x) as A. pose proof (pow10 k) as T.
  rewrite <- (Rabs_right (10 ^ k)) by lra. rewrite <- Rabs_mult. unfold rnd.
  replace ((IZR (fmt k x) / 10 ^ k - x) * 10 ^ k) with (IZR (fmt k x) - x * 10 ^ k) by (field; lra). exact A.
Qed.
Lemma print_grid : forall fmt k x n, prints fmt -> x * 10 ^ k = IZR n -> fmt k x = n.
Proof.
  intros fmt k x n P E. pose proof (P k x) as A. rewrite E in A. rewrite <- minus_IZR in A.
  apply Rabs_le' in A. destruct A as (A & B).
  assert ((fmt k x - n < 1)%Z) by (apply lt_IZR; lra). assert ((-1 < fmt k x - n)%Z) by (apply lt_IZR; lra). lia.
Qed.
Lemma rnd_grid : forall fmt k x, prints fmt -> on_grid k x -> rnd fmt k x = x.
Proof.
  intros fmt k x P (n & E). unfold rnd. rewrite (print_grid fmt k x n P E), <- E. field. pose proof (pow10 k). lra.
Qed.
Lemma grid_up : forall k j x, on_grid k x -> on_grid (k + j) x.
Proof.
  intros k j x (n & E). exists (n * 10 ^ Z.of_nat j)%Z. rewrite pow_add, <- Rmult_assoc, E, mult_IZR.
  f_equal. rewrite <- pow_IZR. reflexivity.
Qed.
Lemma same_grid : forall fmt k x y, prints fmt -> on_grid k x -> on_grid k y -> fmt k x = fmt k y -> x = y.
Proof.
  intros fmt k x y P (n & E) (m & F) H. rewrite (print_grid fmt k x n P E), (print_grid fmt k y m P F) in H.
  subst m. apply (Rmult_eq_reg_r (10 ^ k)); [|pose proof (pow10 k); lra]. congruence.
Qed.

Lemma abs_div : forall x d, Rabs x * d <= 1 -> 0 < d -> - / d <= x <= / d.
Proof.
  intros x d H D. assert (A : Rabs x <= / d).
  { apply (Rmult_le_reg_r d); [exact D|]. rewrite Rinv_l by lra. exact H. }
  apply Rabs_le'. exact A.
Qed.
Lemma abs_half : forall x d, Rabs x * d <= / 2 -> 0 < d -> - / (2 * d) <= x <= / (2 * d).
Proof.
  intros x d H D. assert (A : Rabs x <= / (2 * d)).
  { apply (Rmult_le_reg_r d); [exact D|]. replace (/ (2 * d) * d) with (/ 2) by (field; lra). exact H. }
  apply Rabs_le'. exact A.
Qed.

Lemma print3 : forall fmt x y, prints fmt -> fmt 3%nat x = fmt 3%nat y -> - / 1000 <= x - y <= / 1000.
Proof.
  intros fmt x y P E. pose proof (same_print fmt 3 x y P E) as A.
  replace (10 ^ 3) with 1000 in A by ring. apply abs_div in A; lra.
Qed.
Lemma print4 : forall fmt x y, prints fmt -> fmt 4%nat x = fmt 4%nat y -> - / 1000 <= x - y <= / 1000.
Proof.
  intros fmt x y P E. pose proof (same_print fmt 4 x y P E) as A.
  replace (10 ^ 4) with 10000 in A by ring. apply abs_div in A; lra.
Qed.
Lemma print4' : forall fmt x y, prints fmt -> fmt 4%nat x = fmt 4%nat y -> - / 10000 <= x - y <= / 10000.
Proof.
  intros fmt x y P E. pose proof (same_print fmt 4 x y P E) as A.
  replace (10 ^ 4) with 10000 in A by ring. apply abs_div in A; lra.
Qed.
Lemma print5 : forall fmt x y, prints fmt -> fmt 5%nat x = fmt 5%nat y -> - / 100000 <= x - y <= / 100000.
Proof.
  intros fmt x y P E. pose proof (same_print fmt 5 x y P E) as A.
  replace (10 ^ 5) with 100000 in A by ring. apply abs_div in A; lra.
Qed.
Lemma rnd6 : forall fmt x, prints fmt -> - / 2000000 <= rnd fmt 6 x - x <= / 2000000.
Proof.
  intros fmt x P. pose proof (rnd_close fmt 6 x P) as A. replace (10 ^ 6) with 1000000 in A by ring.
  apply abs_half in A; lra.
Qed.
Lemma rnd5 : forall fmt x, prints fmt -> - / 200000 <= rnd fmt 5 x - x <= / 200000.
Proof.
  intros fmt x P. pose proof (rnd_close fmt 5 x P) as A. replace (10 ^ 5) with 100000 in A by ring.
  apply abs_half in A; lra.
Qed.

(* equal marks: the rounded lengths agree in the printed digits *)
Lemma orth_mark_eq : forall fmt x y z x' y' z', prints fmt ->
  orth_mark fmt (x, y, z) = orth_mark fmt (x', y', z') ->
  let q := rnd fmt 6 in
  (fmt 3%nat (q x) = fmt 3%nat (q x') \/ fmt 4%nat (q x) = fmt 4%nat (q x')) /\
  (fmt 3%nat (q y) = fmt 3%nat (q y') \/ fmt 4%nat (q y) = fmt 4%nat (q y')) /\
  (fmt 3%nat (q z) = fmt 3%nat (q z') \/ fmt 4%nat (q z) = fmt 4%nat (q z')).
Proof.
  intros fmt x y z x' y' z' P H q. unfold orth_mark in H. cbv zeta in H. fold (q x) (q y) (q z) (q x') (q y') (q z') in H.
  destruct (Req_EM_T (q x) (q y)) as [E1|E1];
  destruct (Req_EM_T (q y) (q z)) as [E2|E2];
  destruct (Req_EM_T (q x) (q z)) as [E3|E3];
  destruct (Req_EM_T (q x') (q y')) as [F1|F1];
  destruct (Req_EM_T (q y') (q z')) as [F2|F2];
  destruct (Req_EM_T (q x') (q z')) as [F3|F3]; try discriminate H; try (exfalso; congruence);
  injection H; intros; repeat split; (left; congruence) || (right; congruence).
Qed.

Lemma orth_close : forall fmt l l', prints fmt -> orth_mark fmt l = orth_mark fmt l' -> close (1001 / 1000000) l l'.
Proof.
  intros fmt [[x y] z] [[x' y'] z'] P H. destruct (orth_mark_eq fmt x y z x' y' z' P H) as (A & B & C).
  pose proof (rnd6 fmt x P). pose proof (rnd6 fmt y P). pose proof (rnd6 fmt z P).
  pose proof (rnd6 fmt x' P). pose proof (rnd6 fmt y' P). pose proof (rnd6 fmt z' P).
  assert (Q : forall u v, fmt 3%nat u = fmt 3%nat v \/ fmt 4%nat u = fmt 4%nat v -> - / 1000 <= u - v <= / 1000).
  { intros u v [E|E]; [apply (print3 fmt)|apply (print4 fmt)]; assumption. }
  apply Q in A. apply Q in B. apply Q in C. cbn [close]. repeat split; apply Rabs_le; lra.
Qed.
Lemma orth_exact : forall fmt l l', prints fmt -> all_grid 3 l -> all_grid 3 l' ->
  orth_mark fmt l = orth_mark fmt l' -> l = l'.
Proof.
  intros fmt [[x y] z] [[x' y'] z'] P (X & Y & Z) (X' & Y' & Z') H.
  destruct (orth_mark_eq fmt x y z x' y' z' P H) as (A & B & C).
  assert (Q : forall u v, on_grid 3 u -> on_grid 3 v ->
    fmt 3%nat (rnd fmt 6 u) = fmt 3%nat (rnd fmt 6 v) \/ fmt 4%nat (rnd fmt 6 u) = fmt 4%nat (rnd fmt 6 v) -> u = v).
  { intros u v U V E. rewrite !rnd_grid in E by (try assumption; apply (grid_up 3 3); assumption).
    destruct E as [E|E]; [exact (same_grid fmt 3 u v P U V E)|].
    exact (same_grid fmt 4 u v P (grid_up 3 1 u U) (grid_up 3 1 v V) E). }
  rewrite (Q x x' X X' A), (Q y y' Y Y' B), (Q z z' Z Z' C). reflexivity.
Qed.

Lemma orth2_close : forall fmt x y x' y', prints fmt -> orth_mark2 fmt (x, y) = orth_mark2 fmt (x', y') ->
  Rabs (x - x') <= 11 / 100000 /\ Rabs (y - y') <= 11 / 100000.
Proof.
  intros fmt x y x' y' P H. unfold orth_mark2 in H. cbv zeta in H.
  pose proof (rnd5 fmt x P). pose proof (rnd5 fmt y P). pose proof (rnd5 fmt x' P). pose proof (rnd5 fmt y' P).
  set (a := rnd fmt 5 x) in *. set (b := rnd fmt 5 y) in *. set (a' := rnd fmt 5 x') in *. set (b' := rnd fmt 5 y') in *.
  assert (A : fmt 4%nat a = fmt 4%nat a' /\ fmt 4%nat b = fmt 4%nat b').
  { destruct (Req_EM_T a b) as [E|E]; destruct (Req_EM_T a' b') as [F|F]; try discriminate H; injection H; intros;
      split; congruence. }
  destruct A as (A & B). apply print4' in A; [|exact P]. apply print4' in B; [|exact P].
  split; apply Rabs_le; lra.
Qed.

Lemma side_close : forall fmt c c' d1 d2 d1' d2', prints fmt -> side_mark fmt c d1 d2 = side_mark fmt c' d1' d2' ->
  c = c' /\ Rabs (d1 - d1') <= 11 / 1000000 /\ Rabs (d2 - d2') <= 11 / 1000000.
Proof.
  intros fmt c c' d1 d2 d1' d2' P H. unfold side_mark in H. injection H; intros B A E.
  apply print5 in A; [|exact P]. apply print5 in B; [|exact P].
  pose proof (rnd6 fmt d1 P). pose proof (rnd6 fmt d2 P). pose proof (rnd6 fmt d1' P). pose proof (rnd6 fmt d2' P).
  split; [exact E|]. split; apply Rabs_le; lra.
Qed.

(* ---- caches ---- *)
Section CacheP.
Variable V : Type.
Variable mk : nat -> mark.
Variable val : nat -> V.
Variable elems : list nat.
Hypothesis ND : NoDup elems.

Definition cache_ok (c : list (mark * V)) : Prop :=
  forall m v, find_mark V m c = Some v -> exists j, In j elems /\ mk j = m /\ v = val j.

Lemma get_ok : forall c i, faithful mk val elems -> cache_ok c -> In i elems ->
  fst (cache_get V mk val elems c i) = val i /\ cache_ok (snd (cache_get V mk val elems c i)).
Proof.
  intros c i F C I. unfold cache_get. destruct (is_id (mk i)) eqn:D; [split; [reflexivity|exact C]|].
  assert (N : forall k, mk i <> mId k) by (intros k E; rewrite E in D; discriminate D).
  destruct (find_mark V (mk i) c) as [v|] eqn:E.
  - split; [|exact C]. destruct (C _ _ E) as (j & J1 & J2 & ->). cbn [fst]. symmetry. apply F; auto.
  - split; [reflexivity|]. cbn [snd]. destruct (multi mk elems (mk i)); [|exact C].
    intros m v. cbn [find_mark]. destruct (mark_dec (mk i) m) as [<-|]; [|apply C].
    intros [= <-]. exists i. auto.
Qed.
Lemma run_ok : forall req c, faithful mk val elems -> cache_ok c -> incl req elems ->
  cache_run V mk val elems c req = map val req.
Proof.
  induction req as [|i req IH]; intros c F C I; [reflexivity|]. cbn [cache_run map].
  destruct (get_ok c i F C (I i (or_introl eq_refl))) as (A & B).
  destruct (cache_get V mk val elems c i) as [v c']. cbn [fst snd] in A, B. subst v. f_equal.
  apply IH; auto. intros x X. apply I. right. exact X.
Qed.

Lemma two_multi : forall i j, In i elems -> In j elems -> i <> j -> mk i = mk j -> multi mk elems (mk i) = true.
Proof.
  intros i j I J N E. unfold multi. apply Nat.leb_le.
  set (p := fun k => if mark_dec (mk k) (mk i) then true else false).
  assert (A : NoDup (filter p elems)) by (apply NoDup_filter; exact ND).
  assert (B : incl [i; j] (filter p elems)).
  { intros x [<-|[<-|[]]]; apply filter_In; split; auto; unfold p;
      [destruct (mark_dec (mk i) (mk i))|destruct (mark_dec (mk j) (mk i))]; auto; congruence. }
  assert (D : NoDup [i; j]).
  { constructor; [intros [K|[]]; apply N; symmetry; exact K|]. constructor; [intros []|constructor]. }
  exact (NoDup_incl_length D B).
Qed.

Lemma cache_iff : (forall req, incl req elems -> cache_run V mk val elems [] req = map val req) <-> faithful mk val elems.
Proof.
  split.
  - intros H i j I J E N. destruct (Nat.eq_dec i j) as [->|D]; [reflexivity|].
    assert (Q : incl [i; j] elems) by (intros x [<-|[<-|[]]]; assumption).
    specialize (H [i; j] Q). cbn [cache_run map] in H. unfold cache_get in H.
    assert (ID : is_id (mk i) = false) by (destruct (mk i) eqn:K; try reflexivity; exfalso; exact (N _ eq_refl)).
    rewrite <- E, ID in H. cbn [find_mark] in H. rewrite (two_multi i j I J D E) in H. cbn [find_mark] in H.
    destruct (mark_dec (mk i) (mk i)) as [_|X]; [|congruence]. injection H as H. exact H.
  - intros F req I. apply run_ok; auto. intros m v X. discriminate X.
Qed.
End CacheP.
