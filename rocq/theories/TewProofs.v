(** Entries of sides, and the vectors of elements. *)
From Coq Require Import List Arith ZArith Lia Bool.
From Verif Require Import Prelude RingSum AssembleModel AssembleSpec
  AssembleProofs TewModel TewSpec.
Import ListNotations.

Lemma nat_key : forall a b : nat, (a =? b) = true <-> a = b.
Proof. intros. apply Nat.eqb_eq. Qed.

Lemma at_key_in {A} : forall (d : list (nat * A)) k v,
  at_key k d = Some v -> In (k, v) d.
Proof.
  induction d as [|[k' v'] d IH]; intros k v H; [discriminate|].
  unfold at_key in H. cbn [lookup] in H.
  destruct (Nat.eqb k k') eqn:E.
  - apply Nat.eqb_eq in E. injection H as <-. left. congruence.
  - right. apply IH, H.
Qed.

Lemma in_at_key {A} : forall (d : list (nat * A)) k v,
  keys_ok d -> In (k, v) d -> at_key k d = Some v.
Proof. intros d k v N I. apply (lookup_in nat Nat.eqb nat_key); assumption. Qed.

Lemma at_key_none {A} : forall (d : list (nat * A)) k,
  at_key k d = None <-> ~ In k (map fst d).
Proof.
  induction d as [|[k' v'] d IH]; intros k; [split; [intros _ []|reflexivity]|].
  unfold at_key. cbn [lookup map fst].
  destruct (Nat.eqb k k') eqn:E.
  - apply Nat.eqb_eq in E. split; [discriminate|]. intros N. exfalso. apply N.
    left. congruence.
  - apply Nat.eqb_neq in E. fold (at_key k d). rewrite IH. split.
    + intros N [F|F]; [congruence|tauto].
    + intros N F. apply N. right. exact F.
Qed.

Lemma has_key_in {A} : forall (d : list (nat * A)) k,
  has_key k d = true <-> In k (map fst d).
Proof.
  intros d k. unfold has_key. destruct (at_key k d) as [v|] eqn:E.
  - split; [|reflexivity]. intros _. apply (in_map fst _ (k, v)).
    apply at_key_in, E.
  - apply at_key_none in E. split; [discriminate|tauto].
Qed.

Lemma in_keys {A} : forall (d : list (nat * A)) k,
  In k (map fst d) <-> exists v, In (k, v) d.
Proof.
  intros d k. rewrite in_map_iff. split.
  - intros [[k' v] [E I]]. exists v. cbn [fst] in E. congruence.
  - intros [v I]. exists (k, v). split; [reflexivity|exact I].
Qed.

Lemma keys_same {A} : forall (d : list (nat * A)) k v w,
  keys_ok d -> In (k, v) d -> In (k, w) d -> v = w.
Proof.
  intros d k v w N I J. apply (in_at_key d k v N) in I.
  apply (in_at_key d k w N) in J. congruence.
Qed.

Lemma sum_app : forall l l', sum (l ++ l') = sum l + sum l'.
Proof.
  induction l as [|x l IH]; intro l'; [reflexivity|].
  unfold sum in *. cbn [app fold_right]. rewrite IH. lia.
Qed.

Lemma sum_firstn : forall l a n, nth_error l a = Some n ->
  sum (firstn (S a) l) = sum (firstn a l) + n.
Proof.
  induction l as [|x l IH]; intros [|a] n H; try discriminate.
  - injection H as ->. unfold sum. cbn. lia.
  - cbn [nth_error] in H. specialize (IH a n H). unfold sum in *.
    cbn [firstn fold_right] in *. lia.
Qed.

Lemma sum_firstn_le : forall l a b, a <= b ->
  sum (firstn a l) <= sum (firstn b l).
Proof.
  induction l as [|x l IH]; intros a b H; [destruct a, b; cbn; lia|].
  destruct a as [|a]; [unfold sum; cbn; lia|].
  destruct b as [|b]; [lia|]. specialize (IH a b ltac:(lia)). unfold sum in *.
  cbn [firstn fold_right]. lia.
Qed.

Lemma sum_firstn_all : forall l a, sum (firstn a l) <= sum l.
Proof.
  intros l a. rewrite <- (firstn_skipn a l) at 2. rewrite sum_app. lia.
Qed.

(** Offsets determine side and position. *)
Lemma offset_unique : forall l a b n k p q,
  nth_error l a = Some n -> nth_error l b = Some k -> p < n -> q < k ->
  sum (firstn a l) + p = sum (firstn b l) + q -> a = b /\ p = q.
Proof.
  intros l a b n k p q A B P Q E.
  destruct (Nat.lt_trichotomy a b) as [H|[H|H]].
  - assert (F := sum_firstn_le l (S a) b H).
    rewrite (sum_firstn l a n A) in F. lia.
  - subst. lia.
  - assert (F := sum_firstn_le l (S b) a H).
    rewrite (sum_firstn l b k B) in F. lia.
Qed.

Lemma offset_cover : forall l d, d < sum l ->
  exists a n p, nth_error l a = Some n /\ p < n /\ d = sum (firstn a l) + p.
Proof.
  induction l as [|x l IH]; intros d H; [unfold sum in H; cbn in H; lia|].
  unfold sum in H. cbn [fold_right] in H. fold (sum l) in H.
  destruct (le_lt_dec x d) as [G|G].
  - destruct (IH (d - x)) as [a [n [p [A [P E]]]]]; [lia|].
    exists (S a), n, p. split; [exact A|]. split; [exact P|].
    unfold sum in *. cbn [firstn fold_right]. lia.
  - exists 0, x, d. split; [reflexivity|]. split; [exact G|]. reflexivity.
Qed.

Section Entries.
  Context (m : tform) (F : fits m).

  Lemma gathered_at : forall G a g, t_dofs m = Gathered G -> In (a, g) G ->
    nth_error (t_onside m) a = Some (length g) /\ a < 6 /\
    nth_error (map snd G) a = Some g.
  Proof.
    destruct F as (_ & _ & _ & _ & _ & _ & D). intros G a g E I.
    rewrite E in D. destruct D as (K1 & K2 & _).
    apply In_nth_error in I. destruct I as [i I].
    assert (Ei : i < 6).
    { rewrite <- (seq_length 6 0), <- K1, map_length.
      apply nth_error_Some. rewrite I. discriminate. }
    assert (J := map_nth_error fst _ _ I). rewrite K1 in J. cbn [fst] in J.
    assert (a = i).
    { rewrite (nth_error_nth' _ 0) in J by (rewrite seq_length; lia).
      rewrite seq_nth in J by lia. injection J as <-. reflexivity. }
    subst i. split; [|split; [exact Ei|exact (map_nth_error snd _ _ I)]].
    rewrite <- K2. exact (map_nth_error (fun ag => length (snd ag)) _ _ I).
  Qed.

  Lemma gathered_in : forall G a, t_dofs m = Gathered G -> a < 6 ->
    exists g, In (a, g) G.
  Proof.
    destruct F as (_ & _ & _ & _ & _ & _ & D). intros G a E I.
    rewrite E in D. destruct D as (K1 & _).
    apply in_keys. rewrite K1. apply in_seq. lia.
  Qed.

  Lemma entry_lt : forall a p d, entry m a p d ->
    a < 6 /\ d < t_basis m /\
    exists n, nth_error (t_onside m) a = Some n /\ p < n.
  Proof.
    assert (F' := F). destruct F' as (_ & _ & _ & L6 & _ & _ & D).
    unfold entry. intros a p d. destruct (t_dofs m) as [|G] eqn:E.
    - intros [n [A [P ->]]].
      assert (a < 6) by (rewrite <- L6; apply nth_error_Some; rewrite A;
                         discriminate).
      split; [assumption|]. split; [|exists n; auto].
      rewrite <- D. assert (Q := sum_firstn_all (t_onside m) (S a)).
      rewrite (sum_firstn _ _ _ A) in Q. lia.
    - intros [g [I P]]. destruct (gathered_at G a g E I) as [A [B _]].
      split; [exact B|]. split.
      + destruct D as (_ & _ & (_ & _ & C)).
        assert (J : In (Z.of_nat d) (concat (map snd G))).
        { apply in_concat. exists g. split.
          - apply (in_map snd _ (a, g)), I.
          - apply (nth_error_In _ p), P. }
        apply C in J. lia.
      + exists (length g). split; [exact A|]. apply nth_error_Some.
        rewrite P. discriminate.
  Qed.

  Lemma entry_ex : forall a n p, nth_error (t_onside m) a = Some n -> p < n ->
    exists d, entry m a p d.
  Proof.
    assert (F' := F). destruct F' as (_ & _ & _ & L6 & _ & _ & D).
    intros a n p A P. unfold entry.
    assert (A6 : a < 6) by (rewrite <- L6; apply nth_error_Some; rewrite A;
                            discriminate).
    destruct (t_dofs m) as [|G] eqn:E.
    - exists (sum (firstn a (t_onside m)) + p), n. auto.
    - destruct (gathered_in G a E A6) as [g I].
      destruct (gathered_at G a g E I) as [B [_ C]].
      rewrite A in B. injection B as ->.
      destruct (nth_error g p) as [z|] eqn:Z; [|apply nth_error_None in Z; lia].
      destruct D as (_ & _ & (_ & _ & Q)).
      assert (J : In z (concat (map snd G))).
      { apply in_concat. exists g. split; [apply (in_map snd _ (a, g)), I|].
        apply (nth_error_In _ p), Z. }
      apply Q in J. exists (Z.to_nat z), g. split; [exact I|].
      rewrite Z, Z2Nat.id by lia. reflexivity.
  Qed.

  Lemma entry_fun : forall a p d d', entry m a p d -> entry m a p d' -> d = d'.
  Proof.
    unfold entry. intros a p d d'. destruct (t_dofs m) as [|G] eqn:E.
    - intros [n [A [P ->]]] [n' [A' [P' ->]]]. reflexivity.
    - intros [g [I P]] [g' [I' P']].
      destruct (gathered_at G a g E I) as [_ [_ A]].
      destruct (gathered_at G a g' E I') as [_ [_ A']].
      rewrite A in A'. injection A' as <-. rewrite P in P'.
      injection P' as Q. lia.
  Qed.

  Lemma entry_cover : forall d, d < t_basis m -> exists a p, entry m a p d.
  Proof.
    assert (F' := F). destruct F' as (_ & _ & _ & L6 & _ & _ & D).
    intros d H. unfold entry. destruct (t_dofs m) as [|G] eqn:E.
    - rewrite <- D in H. destruct (offset_cover _ _ H) as [a [n [p [A [P Q]]]]].
      exists a, p, n. auto.
    - destruct D as (_ & _ & (_ & _ & Q)).
      assert (J : In (Z.of_nat d) (concat (map snd G))) by (apply Q; lia).
      apply in_concat in J. destruct J as [g [J I]].
      apply in_map_iff in J. destruct J as [[a g'] [Eg J]]. cbn [snd] in Eg.
      subst g'. apply In_nth_error in I. destruct I as [p I].
      exists a, p, g. auto.
  Qed.

  Lemma hybrid_injective : forall a b p q d, t_dofs m = Hybrid ->
    entry m a p d -> entry m b q d -> a = b /\ p = q.
  Proof.
    unfold entry. intros a b p q d E. rewrite E.
    intros [n [A [P ->]]] [k [B [Q R]]].
    exact (offset_unique _ a b n k p q A B P Q R).
  Qed.
End Entries.

Lemma nth_error_ext {A} : forall l l' : list A,
  (forall i, nth_error l i = nth_error l' i) -> l = l'.
Proof.
  induction l as [|x l IH]; intros [|y l'] H.
  - reflexivity.
  - specialize (H 0). discriminate H.
  - specialize (H 0). discriminate H.
  - assert (H0 := H 0). injection H0 as ->. f_equal. apply IH. intro i.
    exact (H (S i)).
Qed.

Section Values.
  Context {K : CRing} (m : tform) (F : fits m).

  (** The values of a side, as a list. *)
  Lemma values_unique : forall a (v w w' : list K), length v = t_basis m ->
    on_side_values m a v w -> on_side_values m a v w' -> w = w'.
  Proof.
    intros a v w w' L [A V] [A' V']. rewrite A in A'. injection A' as N.
    apply nth_error_ext. intro p.
    destruct (le_lt_dec (length w) p) as [H|H].
    - rewrite (proj2 (nth_error_None w p)) by lia.
      rewrite (proj2 (nth_error_None w' p)) by lia. reflexivity.
    - destruct (entry_ex m F a _ p A H) as [d E].
      rewrite <- (V p d E). apply V', E.
  Qed.

  (** A vector is known by its sides. *)
  Lemma vector_unique : forall (v v' : list K),
    length v = t_basis m -> length v' = t_basis m ->
    (forall a, a < 6 -> exists w, on_side_values m a v w /\
                                  on_side_values m a v' w) -> v = v'.
  Proof.
    intros v v' L L' H. apply nth_error_ext. intro d.
    destruct (le_lt_dec (t_basis m) d) as [G|G].
    - rewrite (proj2 (nth_error_None v d)) by lia.
      rewrite (proj2 (nth_error_None v' d)) by lia. reflexivity.
    - destruct (entry_cover m F d G) as [a [p E]].
      destruct (entry_lt m F a p d E) as [A _].
      destruct (H a A) as [w [[_ V] [_ V']]].
      rewrite (V p d E), (V' p d E). reflexivity.
  Qed.
End Values.
