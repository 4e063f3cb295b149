(** Splitting the vector of an element into its sides, and joining it. *)
From Coq Require Import List Arith ZArith Lia Bool.
From Verif Require Import Prelude RingSum AssembleModel AssembleSpec
  AssembleProofs TewModel TewSpec TewProofs.
Import ListNotations.

Lemma starts_nth : forall ns from a, a <= length ns ->
  nth_error (starts from ns) a = Some (from + sum (firstn a ns)).
Proof.
  induction ns as [|n ns IH]; intros from [|a] H; cbn [length] in H;
    try (cbn [starts nth_error firstn]; unfold sum; cbn [fold_right];
         f_equal; lia); try lia.
  cbn [starts nth_error firstn]. rewrite IH by lia. unfold sum.
  cbn [fold_right]. f_equal. lia.
Qed.

Lemma nth_skipn {A} : forall (l : list A) i j,
  nth_error (skipn i l) j = nth_error l (i + j).
Proof.
  induction l as [|x l IH]; intros [|i] j; try reflexivity.
  - cbn [skipn]. destruct j; reflexivity.
  - cbn [skipn Nat.add nth_error]. apply IH.
Qed.

Lemma nth_firstn {A} : forall (l : list A) n j, j < n ->
  nth_error (firstn n l) j = nth_error l j.
Proof.
  induction l as [|x l IH]; intros [|n] j H; try lia; try reflexivity.
  - destruct j; [reflexivity|]. cbn [firstn nth_error]. apply IH. lia.
Qed.

Lemma all_some_nth {A B} : forall (f : A -> option B) l r i x,
  all_some (map f l) = Some r -> nth_error l i = Some x ->
  exists y, nth_error r i = Some y /\ f x = Some y.
Proof.
  intros f l r i x H. apply all_some_map in H. revert i.
  induction H as [|a b l r E H IH]; intros [|i] I; try discriminate.
  - injection I as <-. exists b. auto.
  - cbn [nth_error] in *. apply IH, I.
Qed.

Section Join.
  Context {K : CRing} (m : tform) (F : fits m).

  Lemma slice_ok : forall a n (v : list K), t_dofs m = Hybrid ->
    length v = t_basis m -> nth_error (t_onside m) a = Some n ->
    exists w, slice (t_onside m) v a = Some w /\ on_side_values m a v w.
  Proof.
    intros a n v E L A.
    assert (H : a < length (t_onside m))
      by (apply nth_error_Some; rewrite A; discriminate).
    assert (B : sum (firstn (S a) (t_onside m)) <= t_basis m).
    { destruct F as (_ & _ & _ & _ & _ & _ & D). rewrite E in D.
      rewrite <- D. apply sum_firstn_all. }
    assert (C := sum_firstn _ _ _ A).
    unfold slice. rewrite !starts_nth by lia. cbn [Nat.add].
    eexists. split; [reflexivity|].
    replace (sum (firstn (S a) (t_onside m)) - sum (firstn a (t_onside m)))
      with n by lia.
    split.
    - rewrite A. f_equal. rewrite firstn_length, skipn_length. lia.
    - unfold entry. rewrite E. intros p d [n' [A' [P ->]]].
      rewrite A in A'. injection A' as <-.
      rewrite nth_firstn by exact P. rewrite nth_skipn. reflexivity.
  Qed.

  Lemma distribute_ok : forall G (v : list K), t_dofs m = Gathered G ->
    length v = t_basis m ->
    exists D, VectorDistributor nat K G v = Some D /\
    forall a, a < 6 -> exists w, at_key a D = Some w /\ on_side_values m a v w.
  Proof.
    intros G v E L.
    assert (F' := F). destruct F' as (_ & _ & _ & _ & _ & _ & D0).
    rewrite E in D0. destruct D0 as (K1 & K2 & N).
    unfold VectorDistributor. rewrite (proj2 (checker_iff _ _) N).
    rewrite L, Z.eqb_refl.
    assert (R : forall a g, In (a, g) G -> exists w,
      np_take v g = Some w /\ on_side_values m a v w).
    { intros a g I. destruct (gathered_at m F G a g E I) as [A _].
      assert (B : forall i, In i g -> (0 <= i < Z.of_nat (length v))%Z).
      { intros i J. rewrite L. apply N. apply in_concat. exists g.
        split; [apply (in_map snd _ (a, g)), I|exact J]. }
      destruct (all_some_map_total (np_get v) g) as [w W].
      { intros i J. specialize (B i J). unfold np_get.
        replace (0 <=? i)%Z with true by (symmetry; lia).
        intro Q. apply nth_error_None in Q. lia. }
      exists w. split; [exact W|]. split.
      - rewrite A. f_equal. apply all_some_map in W.
        clear -W. induction W; [reflexivity|]. cbn [length]. congruence.
      - unfold entry. rewrite E. intros p d [g' [I' P]].
        destruct (gathered_at m F G a g E I) as [_ [_ J]].
        destruct (gathered_at m F G a g' E I') as [_ [_ J']].
        rewrite J in J'. injection J' as <-.
        destruct (all_some_nth _ _ _ _ _ W P) as [y [Y Y']].
        rewrite Y. unfold np_get in Y'.
        destruct (0 <=? Z.of_nat d)%Z; [|discriminate].
        rewrite Nat2Z.id in Y'. exact Y'. }
    destruct (all_some_map_total (fun kg => option_map (pair (fst kg))
      (np_take v (snd kg))) G) as [D HD].
    { intros [a g] I. destruct (R a g I) as [w [W _]]. cbn [fst snd].
      rewrite W. discriminate. }
    exists D. split; [exact HD|]. intros a A.
    destruct (gathered_in m F G a E A) as [g I].
    destruct (R a g I) as [w [W V]]. exists w. split; [|exact V].
    assert (KD : map fst D = map fst G).
    { apply all_some_map in HD. clear -HD.
      induction HD as [|[k g] [k' w] G D E H IH]; [reflexivity|].
      cbn [map fst snd] in *. destruct (np_take v g); [|discriminate].
      cbn [option_map] in E. injection E as -> _. f_equal. exact IH. }
    apply in_at_key.
    - unfold keys_ok. rewrite KD, K1. apply seq_NoDup.
    - apply In_nth_error in I. destruct I as [i I].
      destruct (all_some_nth _ _ _ _ _ HD I) as [y [Y Y']].
      cbn [fst snd] in Y'. rewrite W in Y'. cbn [option_map] in Y'.
      injection Y' as <-. exact (nth_error_In _ _ Y).
  Qed.

  (** The parts of an element have the right lengths. *)
  Definition parts_ok (vs : list (list K)) : Prop :=
    length vs = 6 /\ forall a w, nth_error vs a = Some w ->
    nth_error (t_onside m) a = Some (length w).

  Lemma concat_at : forall (vs : list (list K)) ns a w p,
    (forall b u, nth_error vs b = Some u -> nth_error ns b = Some (length u)) ->
    nth_error vs a = Some w -> p < length w ->
    nth_error (concat vs) (sum (firstn a ns) + p) = nth_error w p.
  Proof.
    induction vs as [|u vs IH]; intros ns a w p H A P;
      [destruct a; discriminate|].
    destruct ns as [|n ns]; [specialize (H 0 u eq_refl); discriminate|].
    assert (H0 := H 0 u eq_refl). injection H0 as ->.
    destruct a as [|a].
    - injection A as ->. cbn [firstn concat]. unfold sum. cbn [fold_right].
      apply nth_error_app1. exact P.
    - cbn [firstn concat nth_error] in *. unfold sum. cbn [fold_right].
      fold (sum (firstn a ns)). rewrite nth_error_app2 by lia.
      replace (length u + sum (firstn a ns) + p - length u)
        with (sum (firstn a ns) + p) by lia.
      apply IH; [|exact A|exact P]. intros b x B. exact (H (S b) x B).
  Qed.

  Lemma concat_length : forall (vs : list (list K)) ns,
    length vs = length ns ->
    (forall b u, nth_error vs b = Some u -> nth_error ns b = Some (length u)) ->
    length (concat vs) = sum ns.
  Proof.
    induction vs as [|u vs IH]; intros [|n ns] L H; try discriminate;
      [reflexivity|].
    assert (H0 := H 0 u eq_refl). injection H0 as ->.
    cbn [concat]. rewrite app_length. unfold sum. cbn [fold_right].
    fold (sum ns). f_equal. apply IH; [injection L as L; exact L|].
    intros b x B. exact (H (S b) x B).
  Qed.

  Lemma combine_at : forall (vs : list (list K)) n from a,
    length vs = n -> a < n ->
    at_key (from + a) (combine (seq from n) vs) = nth_error vs a.
  Proof.
    induction vs as [|u vs IH]; intros n from a L A; cbn [length] in L; [lia|].
    destruct n as [|n]; [lia|]. cbn [seq combine]. unfold at_key.
    cbn [lookup].
    destruct a as [|a].
    - rewrite Nat.add_0_r, Nat.eqb_refl. reflexivity.
    - replace (from + S a =? from) with false
        by (symmetry; apply Nat.eqb_neq; lia).
      fold (at_key (from + S a) (combine (seq (S from) n) vs)).
      replace (from + S a) with (S from + a) by lia. cbn [nth_error].
      apply IH; lia.
  Qed.

  (** Joining: always possible; every entry comes from a side; with agreeing
      sides all sides are there. *)
  Lemma assemble_ok : forall G vs, t_dofs m = Gathered G -> parts_ok vs ->
    exists v, VectorAssembler nat Nat.eqb K G Replace (combine (seq 0 6) vs)
      = Some v /\ length v = t_basis m /\
    ((forall a b va vb p q d, nth_error vs a = Some va ->
       nth_error vs b = Some vb -> entry m a p d -> entry m b q d ->
       nth_error va p = nth_error vb q) ->
     forall a w, nth_error vs a = Some w -> on_side_values m a v w).
  Proof.
    intros G vs E [L P].
    assert (F' := F). destruct F' as (_ & _ & _ & _ & _ & _ & D0).
    rewrite E in D0. destruct D0 as (K1 & K2 & N).
    assert (DA : forall a, a < 6 ->
      at_key a (combine (seq 0 6) vs) = nth_error vs a)
      by (intros a A; exact (combine_at vs 6 0 a L A)).
    assert (DF : data_for Nat.eqb G (combine (seq 0 6) vs)).
    { split.
      - rewrite combine_length, seq_length, L.
        assert (Q : length G = 6) by (rewrite <- (map_length fst), K1; reflexivity).
        rewrite Q. reflexivity.
      - intros k g I. destruct (gathered_at m F G k g E I) as [A [B _]].
        destruct (nth_error vs k) as [w|] eqn:W;
          [|apply nth_error_None in W; lia].
        exists w. split; [rewrite <- W; exact (DA k B)|].
        specialize (P k w W). rewrite A in P. injection P as P. congruence. }
    destruct (vector_replace nat Nat.eqb K G _ _ N DF) as [v [V [Lv C]]].
    exists v. split; [exact V|]. rewrite Nat2Z.id in Lv, C.
    split; [exact Lv|]. intros AG a w W. split; [exact (P a w W)|].
    intros p d En. destruct (entry_lt m F a p d En) as [A [Dl [n [An Pn]]]].
    destruct (C d Dl) as [ws1 [x [ws2 [Wr [_ X]]]]].
    assert (I : In (Z.of_nat d, x) (writes Nat.eqb G (combine (seq 0 6) vs)))
      by (rewrite Wr; apply in_or_app; right; left; reflexivity).
    unfold writes in I. apply in_flat_map in I.
    destruct I as [[b g] [Ib I]]. cbn [fst snd] in I.
    destruct (gathered_at m F G b g E Ib) as [B [B6 _]].
    destruct (nth_error vs b) as [u|] eqn:U;
      [|apply nth_error_None in U; lia].
    assert (Q : data_of Nat.eqb (combine (seq 0 6) vs) b = u).
    { unfold data_of. fold (at_key b (combine (seq 0 6) vs)).
      rewrite (DA b B6), U. reflexivity. }
    rewrite Q in I. apply In_nth_error in I. destruct I as [q I].
    assert (Eq : nth_error g q = Some (Z.of_nat d) /\ nth_error u q = Some x).
    { clear -I. revert g u I. induction q as [|q IH]; intros [|z g] [|y u] I;
        try discriminate.
      - cbn in I. injection I as -> ->. auto.
      - cbn [combine nth_error] in *. apply IH, I. }
    destruct Eq as [Eq Ux].
    rewrite X, <- Ux. symmetry. apply (AG a b w u p q d W U En).
    unfold entry. rewrite E. exists g. auto.
  Qed.

  Lemma parts_join : forall vs, parts_ok vs ->
    exists v, (match t_dofs m with
               | Hybrid => Some (concat vs)
               | Gathered G => VectorAssembler nat Nat.eqb K G Replace
                                 (combine (seq 0 6) vs)
               end) = Some v /\ length v = t_basis m /\
    ((forall a b va vb p q d, nth_error vs a = Some va ->
       nth_error vs b = Some vb -> entry m a p d -> entry m b q d ->
       nth_error va p = nth_error vb q) ->
     forall a w, nth_error vs a = Some w -> on_side_values m a v w).
  Proof.
    intros vs PO. destruct (t_dofs m) as [|G] eqn:E;
      [|apply (assemble_ok G vs E PO)].
    assert (F' := F). destruct F' as (_ & _ & _ & L6 & _ & _ & D0).
    rewrite E in D0. destruct PO as [L P].
    exists (concat vs). split; [reflexivity|]. split.
    - rewrite <- D0. apply concat_length; [lia|exact P].
    - intros _ a w W. split; [exact (P a w W)|]. unfold entry. rewrite E.
      intros p d [n [A [Pn ->]]]. apply concat_at; [exact P|exact W|].
      specialize (P a w W). rewrite A in P. injection P as <-. exact Pn.
  Qed.
End Join.
