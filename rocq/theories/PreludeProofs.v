From Coq Require Import List Arith ZArith Lia Bool Permutation.
From Coq Require Import ZifyBool.
From Verif Require Import Prelude.
Import ListNotations.

Lemma sum_app l1 l2 : sum (l1 ++ l2) = sum l1 + sum l2.
Proof. unfold sum. induction l1; simpl; [reflexivity|]. rewrite IHl1. lia. Qed.

Lemma sum_cons a l : sum (a :: l) = a + sum l.
Proof. reflexivity. Qed.

Lemma firstn_S_snoc {A} (d : A) l i : i < length l -> firstn (S i) l = firstn i l ++ [nth i l d].
Proof.
  revert i. induction l as [|a l IH]; intros i H; simpl in H; [lia|].
  destruct i as [|i]; [reflexivity|].
  change (a :: firstn (S i) l = a :: (firstn i l ++ [nth i l d])).
  rewrite IH by lia. reflexivity.
Qed.

Lemma sum_firstn_S l i : i < length l -> sum (firstn (S i) l) = sum (firstn i l) + nth i l 0.
Proof. intros H. rewrite (firstn_S_snoc 0) by assumption. rewrite sum_app. simpl. lia. Qed.

Lemma sum_firstn_le l i j : i <= j -> sum (firstn i l) <= sum (firstn j l).
Proof.
  intros H. rewrite <- (firstn_skipn i (firstn j l)). rewrite firstn_firstn.
  rewrite Nat.min_l by lia. rewrite sum_app. lia.
Qed.

Lemma in_range x a b : In x (range a b) <-> a <= x < b.
Proof. unfold range. rewrite in_seq. lia. Qed.

Lemma length_range a b : length (range a b) = b - a.
Proof. unfold range. apply seq_length. Qed.

Lemma range_app a b c : a <= b -> b <= c -> range a b ++ range b c = range a c.
Proof.
  intros H1 H2. unfold range.
  replace (c - a) with ((b - a) + (c - b)) by lia. rewrite seq_app.
  replace (a + (b - a)) with b by lia. reflexivity.
Qed.

Lemma NoDup_range a b : NoDup (range a b).
Proof. apply seq_NoDup. Qed.

Lemma length_update {A} (l : list A) i v : length (update l i v) = length l.
Proof. revert i. induction l; destruct i; simpl; auto. Qed.

Lemma nth_update_eq {A} (l : list A) i v d : i < length l -> nth i (update l i v) d = v.
Proof. revert i. induction l; destruct i; simpl; intros; try lia; auto. apply IHl. lia. Qed.

Lemma nth_update_neq {A} (l : list A) i j v d : i <> j -> nth j (update l i v) d = nth j l d.
Proof. revert i j. induction l; destruct i, j; simpl; intros; try lia; auto. Qed.

Lemma nth_error_update_eq {A} (l : list A) i v : i < length l -> nth_error (update l i v) i = Some v.
Proof. revert i. induction l; destruct i; simpl; intros; try lia; auto. apply IHl. lia. Qed.

Lemma nth_error_update_neq {A} (l : list A) i j v : i <> j -> nth_error (update l i v) j = nth_error l j.
Proof. revert i j. induction l; destruct i, j; simpl; intros; try lia; auto. Qed.

Lemma list_ext_nth_error {A} (l1 l2 : list A) :
  (forall i, nth_error l1 i = nth_error l2 i) -> l1 = l2.
Proof.
  revert l2. induction l1 as [|a l1 IH]; intros [|b l2] H.
  - reflexivity.
  - specialize (H 0). discriminate.
  - specialize (H 0). discriminate.
  - assert (E := H 0). simpl in E. injection E as ->. f_equal. apply IH.
    intros i. exact (H (S i)).
Qed.

Lemma nth_error_map_seq {A} (f : nat -> A) s n i :
  nth_error (map f (seq s n)) i = if i <? n then Some (f (s + i)) else None.
Proof.
  destruct (Nat.ltb_spec i n) as [H|H].
  - rewrite nth_error_map.
    rewrite (nth_error_nth' _ 0) by (rewrite seq_length; lia).
    rewrite seq_nth by lia. reflexivity.
  - apply nth_error_None. rewrite map_length, seq_length. lia.
Qed.

Lemma nth_map_seq {A} (f : nat -> A) s n i d : i < n -> nth i (map f (seq s n)) d = f (s + i).
Proof.
  intros H. rewrite (nth_indep _ d (f 0)) by (rewrite map_length, seq_length; lia).
  rewrite map_nth. rewrite seq_nth by lia. reflexivity.
Qed.

Lemma sum_map_seq_S (f : nat -> nat) s n : sum (map f (seq s (S n))) = sum (map f (seq s n)) + f (s + n).
Proof. rewrite seq_S, map_app, sum_app. simpl. lia. Qed.

Lemma firstn_map_seq {A} (f : nat -> A) s n i : i <= n -> firstn i (map f (seq s n)) = map f (seq s i).
Proof.
  intros H. replace n with (i + (n - i)) by lia. rewrite seq_app, map_app.
  rewrite firstn_app. rewrite map_length, seq_length.
  replace (i - i) with 0 by lia. simpl. rewrite app_nil_r.
  rewrite firstn_all2; [reflexivity|]. rewrite map_length, seq_length. lia.
Qed.

Lemma maxl_le l m : (forall x, In x l -> x <= m) -> maxl l <= m.
Proof.
  induction l; simpl; intros H; [lia|]. apply Nat.max_lub.
  - apply H. left; reflexivity.
  - apply IHl. intros. apply H. right; assumption.
Qed.

Lemma maxl_in l x : In x l -> x <= maxl l.
Proof. induction l; simpl; [tauto|]. intros [->|H]; [lia|]. apply IHl in H. lia. Qed.

Lemma index_true_Some l i : index_true l = Some i ->
  i < length l /\ nth i l false = true /\ forall j, j < i -> nth j l false = false.
Proof.
  revert i. induction l as [|b l IH]; simpl; intros i H; [discriminate|].
  destruct b.
  - injection H as <-. repeat split; try lia. 
  - destruct (index_true l) as [k|] eqn:E; simpl in H; [|discriminate].
    injection H as <-. destruct (IH k eq_refl) as (H1 & H2 & H3).
    repeat split; try lia; auto. intros [|j] Hj; [reflexivity|]. apply H3. lia.
Qed.

Lemma index_true_None l : index_true l = None <-> forall j, nth j l false = false.
Proof.
  induction l as [|b l IH]; simpl.
  - split; auto. intros _ j. destruct j; reflexivity.
  - destruct b.
    + split; [discriminate|]. intros H. specialize (H 0). discriminate.
    + destruct (index_true l) as [k|]; simpl.
      * split; [discriminate|]. intros H. exfalso.
        destruct IH as [_ IH]. assert (Some k = None); [|discriminate].
        apply IH. intros j. exact (H (S j)).
      * split; auto. intros _ [|j]; [reflexivity|]. apply IH. reflexivity.
Qed.
