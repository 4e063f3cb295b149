(** From trace elements to elements and back. *)
From Coq Require Import List Arith ZArith Lia Bool.
From Verif Require Import Prelude RingSum AssembleModel AssembleSpec
  AssembleProofs TewModel TewSpec TewProofs TewProofs2.
Import ListNotations.

Lemma NoDup_app_single {A} : forall (l : list A) x,
  NoDup l -> ~ In x l -> NoDup (l ++ [x]).
Proof.
  intros l x N X. apply NoDup_rev in N. rewrite <- (rev_involutive (l ++ [x])).
  apply NoDup_rev. rewrite rev_app_distr. cbn [rev app].
  constructor; [rewrite <- in_rev; exact X|exact N].
Qed.

Section Tew.
  Context {K : CRing} (m : tform) (F : fits m).

  Lemma tew_shape_iff : forall te (w : list K),
    tew_shape m (te, w) = true <-> exists ce cs,
      In (te, (ce, cs)) (t_cp m) /\ nth_error (t_onside m) cs = Some (length w).
  Proof.
    destruct F as (_ & N & _). intros te w. unfold tew_shape. cbn [fst snd].
    split.
    - destruct (at_key te (t_cp m)) as [[ce cs]|] eqn:E; [|discriminate].
      destruct (nth_error (t_onside m) cs) as [n|] eqn:A; [|discriminate].
      intro H. apply Nat.eqb_eq in H. subst n. exists ce, cs.
      split; [apply at_key_in, E|exact A].
    - intros [ce [cs [I A]]]. rewrite (in_at_key _ _ _ N I), A.
      apply Nat.eqb_refl.
  Qed.

  Lemma tew_shapes_iff : forall T : list (nat * list K),
    forallb (tew_shape m) T = true <-> tew_shapes m T.
  Proof.
    intro T. rewrite forallb_forall. split.
    - intros H te w I. apply tew_shape_iff, H, I.
    - intros H [te w] I. apply tew_shape_iff, H, I.
  Qed.

  Lemma local_shapes_iff : forall L : list (nat * list K),
    forallb (fun kv => length (snd kv) =? t_basis m) L = true
    <-> local_shapes m L.
  Proof.
    intro L. rewrite forallb_forall. split.
    - intros H e v I. apply Nat.eqb_eq, (H (e, v) I).
    - intros H [e v] I. apply Nat.eqb_eq, (H e v I).
  Qed.

  (** The length on one side of a trace element given in the right shape. *)
  Lemma shape_at : forall (T : list (nat * list K)) te w e a, tew_shapes m T ->
    In (te, w) T -> on_side m te e a ->
    nth_error (t_onside m) a = Some (length w).
  Proof.
    intros T te w e a H I O.
    destruct F as (_ & N & _ & _ & C & _).
    destruct (C te e a O) as [ce [cs [J A]]].
    destruct (H te w I) as [ce' [cs' [J' A']]].
    assert (Q := keys_same _ _ _ _ N J J'). injection Q as <- <-. congruence.
  Qed.

  Lemma all_given_iff : forall (T : list (nat * list K)) tes,
    all_given T tes = true <-> forall te, In te tes -> In te (map fst T).
  Proof.
    intros T tes. unfold all_given. rewrite forallb_forall. split; intros H te I.
    - apply has_key_in, H, I.
    - apply has_key_in, H, I.
  Qed.

  Lemma join_ok : forall (T : list (nat * list K)) e tes,
    keys_ok T -> tew_shapes m T -> In (e, tes) (t_map m) ->
    all_given T tes = true ->
    exists v, join m T tes = Some v /\ length v = t_basis m /\
    (conforming m T -> forall te a w, nth_error tes a = Some te ->
       In (te, w) T -> on_side_values m a v w).
  Proof.
    intros T e tes N H I G.
    destruct (all_some_map_total (fun te => at_key te T) tes) as [vs V].
    { intros te J. rewrite all_given_iff in G. apply G in J.
      intro Q. apply at_key_none in Q. exact (Q J). }
    assert (L6 : length tes = 6).
    { destruct F as (_ & _ & L6 & _). exact (L6 e tes I). }
    assert (Lv : length vs = 6).
    { apply all_some_map in V. rewrite <- L6. clear -V.
      induction V; [reflexivity|]. cbn [length]. congruence. }
    assert (At : forall a w, nth_error vs a = Some w ->
      exists te, nth_error tes a = Some te /\ In (te, w) T).
    { intros a w W.
      destruct (nth_error tes a) as [te|] eqn:Te.
      - exists te. split; [reflexivity|].
        destruct (all_some_nth _ _ _ _ _ V Te) as [y [Y Y']].
        rewrite W in Y. injection Y as <-. apply at_key_in, Y'.
      - apply nth_error_None in Te.
        assert (a < length vs) by (apply nth_error_Some; rewrite W; discriminate).
        lia. }
    assert (P : parts_ok m vs).
    { split; [exact Lv|]. intros a w W. destruct (At a w W) as [te [Te J]].
      apply (shape_at T te w e a H J). exists tes. auto. }
    destruct (parts_join m F vs P) as [v [J [L Q]]].
    exists v. unfold join. rewrite V.
    split; [|split; [exact L|]].
    - rewrite J, L, Nat.eqb_refl. reflexivity.
    - intros C te a w Te W.
      apply Q.
      + intros a' b va vb p q d A B Ea Eb.
        destruct (At a' va A) as [ta [Ta Ia]].
        destruct (At b vb B) as [tb [Tb Ib]].
        apply (C e a' b ta tb va vb p q d); try assumption; exists tes; auto.
      + destruct (all_some_nth _ _ _ _ _ V Te) as [y [Y Y']].
        rewrite (in_at_key _ _ _ N W) in Y'. injection Y' as <-. exact Y.
  Qed.

  Lemma tew_2_local_ok : forall (T : list (nat * list K)) es,
    keys_ok T -> tew_shapes m T ->
    (forall e tes, In (e, tes) es -> In (e, tes) (t_map m)) ->
    NoDup (map fst es) ->
    exists L, tew_2_local m T es = Some L /\ keys_ok L /\ local_shapes m L /\
    (forall e v, In (e, v) L -> exists tes, In (e, tes) es /\
       (forall te, In te tes -> In te (map fst T)) /\
       (conforming m T -> forall te a w, nth_error tes a = Some te ->
          In (te, w) T -> on_side_values m a v w)) /\
    (forall e tes, In (e, tes) es ->
       (forall te, In te tes -> In te (map fst T)) -> In e (map fst L)).
  Proof.
    intros T es N H. induction es as [|[e tes] es IH]; intros I D.
    - exists []. split; [reflexivity|]. split; [constructor|].
      split; [intros e v []|]. split; [intros e v []|intros e tes []].
    - cbn [map fst] in D. inversion D as [|x xs D1 D2]; subst x xs.
      destruct IH as [L [E [NL [SL [S1 S2]]]]];
        [intros e' tes' J; apply I; right; exact J|exact D2|].
      cbn [tew_2_local]. destruct (all_given T tes) eqn:G.
      + destruct (join_ok T e tes N H (I e tes (or_introl eq_refl)) G)
          as [v [J [Lv Q]]].
        rewrite J, E. exists ((e, v) :: L). split; [reflexivity|].
        split.
        { unfold keys_ok. cbn [map fst]. constructor; [|exact NL].
          intro B. apply in_keys in B. destruct B as [v' B].
          destruct (S1 e v' B) as [tes' [C _]]. apply D1.
          apply (in_map fst _ _ C). }
        split; [intros e' v' [B|B]; [injection B as <- <-; exact Lv|
                                     exact (SL e' v' B)]|].
        split.
        * intros e' v' [B|B].
          -- injection B as <- <-. exists tes. split; [left; reflexivity|].
             split; [apply all_given_iff, G|exact Q].
          -- destruct (S1 e' v' B) as [tes' [C1 C2]]. exists tes'.
             split; [right; exact C1|exact C2].
        * intros e' tes' [B|B] A.
          -- injection B as <- <-. left. reflexivity.
          -- right. exact (S2 e' tes' B A).
      + exists L. split; [exact E|]. split; [exact NL|]. split; [exact SL|].
        split.
        * intros e' v' B. destruct (S1 e' v' B) as [tes' [C1 C2]]. exists tes'.
          split; [right; exact C1|exact C2].
        * intros e' tes' [B|B] A.
          -- injection B as <- <-. apply all_given_iff in A. congruence.
          -- exact (S2 e' tes' B A).
  Qed.

  Lemma set_tew_ok : forall (T : list (nat * list K)) s,
    keys_ok T -> tew_shapes m T ->
    exists L f, set_tew m T s = Done (mkstate (Some L) (Some T) (Some f)) /\
    keys_ok L /\ local_shapes m L /\
    (forall e, In e (map fst L) <-> exists tes, In (e, tes) (t_map m) /\
       forall te, In te tes -> In te (map fst T)) /\
    (f = true <-> forall e, In e (map fst (t_map m)) -> In e (map fst L)) /\
    (conforming m T -> forall e v te a w, In (e, v) L -> on_side m te e a ->
       In (te, w) T -> on_side_values m a v w).
  Proof.
    intros T s N H.
    assert (NM : NoDup (map fst (t_map m))) by (apply F).
    destruct (tew_2_local_ok T (t_map m) N H (fun _ _ I => I) NM)
      as [L [E [NL [SL [S1 S2]]]]].
    exists L, (forallb (fun et => all_given T (snd et)) (t_map m)).
    unfold set_tew. rewrite (proj2 (tew_shapes_iff T) H), E.
    split; [reflexivity|]. split; [exact NL|]. split; [exact SL|].
    assert (S3 : forall e, In e (map fst L) <-> exists tes,
      In (e, tes) (t_map m) /\ forall te, In te tes -> In te (map fst T)).
    { intro e. split.
      - intro I. apply in_keys in I. destruct I as [v I].
        destruct (S1 e v I) as [tes [A [B _]]]. exists tes. auto.
      - intros [tes [A B]]. exact (S2 e tes A B). }
    split; [exact S3|]. split.
    - rewrite forallb_forall. split.
      + intros A e I. apply in_keys in I. destruct I as [tes I].
        apply S3. exists tes. split; [exact I|].
        apply all_given_iff, (A (e, tes) I).
      + intros A [e tes] I. cbn [snd]. apply all_given_iff.
        assert (J := A e (in_map fst _ _ I)). apply S3 in J.
        destruct J as [tes' [J1 J2]].
        rewrite (keys_same _ _ _ _ NM I J1). exact J2.
    - intros C e v te a w I [tes [J A]] W.
      destruct (S1 e v I) as [tes' [J' [_ Q]]].
      rewrite (keys_same _ _ _ _ NM J J') in A. exact (Q C te a w A W).
  Qed.

  Lemma set_tew_accepts : forall (T : list (nat * list K)) s, keys_ok T ->
    (exists s', set_tew m T s = Done s') <-> tew_shapes m T.
  Proof.
    intros T s N. split.
    - intros [s' H]. unfold set_tew in H.
      destruct (forallb (tew_shape m) T) eqn:E; [|discriminate].
      apply tew_shapes_iff, E.
    - intro H. destruct (set_tew_ok T s N H) as [L [f [E _]]]. eauto.
  Qed.

  Lemma set_local_accepts : forall (L : list (nat * list K)) s,
    ((exists s', set_local m L s = Done s') <-> local_shapes m L) /\
    forall s', set_local m L s = Done s' ->
      s' = mkstate (Some L) None (Some (length L =? length (t_map m))).
  Proof.
    intros L s. unfold set_local. cbn [s_full]. split.
    - rewrite <- local_shapes_iff.
      destruct (forallb _ L); split; intro H; eauto;
        try (destruct H; discriminate); discriminate.
    - intros s'. destruct (forallb _ L); [|discriminate]. intro H.
      injection H as <-. reflexivity.
  Qed.

  (** Hybrid forms: sides share nothing. *)
  Lemma hybrid_conforming : forall T : list (nat * list K),
    t_dofs m = Hybrid -> keys_ok T -> conforming m T.
  Proof.
    intros T E N e a b ta tb va vb p q d [tes [Ia Aa]] [tes' [Ib Ab]] Ja Jb
      Ea Eb.
    destruct (hybrid_injective m a b p q d E Ea Eb) as [<- <-].
    assert (NM : NoDup (map fst (t_map m))) by (apply F).
    rewrite (keys_same _ _ _ _ NM Ia Ib) in Aa. rewrite Aa in Ab.
    injection Ab as <-. rewrite (keys_same _ _ _ _ N Ja Jb). reflexivity.
  Qed.

  (** *** From elements to trace elements *)

  Lemma tew_hybrid_ok : forall (L : list (nat * list K)) tes T,
    t_dofs m = Hybrid -> keys_ok L -> local_shapes m L ->
    (forall te cp, In (te, cp) tes -> In (te, cp) (t_cp m)) ->
    NoDup (map fst tes) -> keys_ok T ->
    (forall te, In te (map fst T) -> ~ In te (map fst tes)) ->
    exists T', tew_hybrid m L tes T = Some T' /\ keys_ok T' /\
    (forall te w, In (te, w) T' -> In (te, w) T \/
       exists ce cs v, In (te, (ce, cs)) tes /\ In (ce, v) L /\
         on_side_values m cs v w) /\
    (forall te w, In (te, w) T -> In (te, w) T') /\
    (forall te ce cs, In (te, (ce, cs)) tes -> In ce (map fst L) ->
       In te (map fst T')).
  Proof.
    intros L tes T E NL SL. revert T.
    induction tes as [|[i [ce cs]] tes IH]; intros T I D NT X.
    - exists T. split; [reflexivity|]. split; [exact NT|].
      split; [auto|]. split; [auto|]. intros te ce cs [].
    - cbn [map fst] in D, X. inversion D as [|x xs D1 D2]; subst x xs.
      cbn [tew_hybrid].
      assert (I' : forall te cp, In (te, cp) tes -> In (te, cp) (t_cp m))
        by (intros te cp J; apply I; right; exact J).
      destruct (at_key ce L) as [v|] eqn:Ce.
      + assert (NI : ~ In i (map fst T))
          by (intro J; apply (X i J); left; reflexivity).
        assert (HI : has_key i T = false).
        { destruct (has_key i T) eqn:Q; [|reflexivity].
          apply has_key_in in Q. contradiction. }
        rewrite HI.
        assert (Iv := at_key_in _ _ _ Ce).
        assert (On : exists n, nth_error (t_onside m) cs = Some n).
        { destruct F as (_ & _ & L6 & O6 & _ & P & _).
          destruct (P i ce cs (I _ _ (or_introl eq_refl))) as [row [R A]].
          assert (cs < length row)
            by (apply nth_error_Some; rewrite A; discriminate).
          rewrite (L6 _ _ R) in H.
          destruct (nth_error (t_onside m) cs) as [n|] eqn:Q; [eauto|].
          apply nth_error_None in Q. lia. }
        destruct On as [n On].
        destruct (slice_ok m F cs n v E (SL ce v Iv) On) as [w [W V]].
        rewrite W.
        destruct (IH (T ++ [(i, w)])) as [T' [E' [N' [P1 [P2 P3]]]]].
        { exact I'. }
        { exact D2. }
        { unfold keys_ok. rewrite map_app. cbn [map fst].
          apply NoDup_app_single; assumption. }
        { intros te J. rewrite map_app in J. apply in_app_iff in J.
          destruct J as [J|[<-|[]]]; [|exact D1].
          intro B. apply (X te J). right. exact B. }
        exists T'. split; [exact E'|]. split; [exact N'|]. split; [|split].
        * intros te u J. destruct (P1 te u J) as [B|B].
          -- apply in_app_iff in B. destruct B as [B|[B|[]]]; [left; exact B|].
             injection B as <- <-. right. exists ce, cs, v.
             split; [left; reflexivity|]. auto.
          -- right. destruct B as [ce' [cs' [v' [B1 B2]]]].
             exists ce', cs', v'. split; [right; exact B1|exact B2].
        * intros te u J. apply P2, in_app_iff. left. exact J.
        * intros te ce' cs' [J|J] Q.
          -- injection J as <- <- <-. apply (in_map fst _ (i, w)).
             apply P2, in_app_iff. right. left. reflexivity.
          -- exact (P3 te ce' cs' J Q).
      + destruct (IH T) as [T' [E' [N' [P1 [P2 P3]]]]];
          [exact I'|exact D2|exact NT| |].
        { intros te J B. apply (X te J). right. exact B. }
        exists T'. split; [exact E'|]. split; [exact N'|]. split; [|split].
        * intros te u J. destruct (P1 te u J) as [B|B]; [left; exact B|].
          right. destruct B as [ce' [cs' [v' [B1 B2]]]].
          exists ce', cs', v'. split; [right; exact B1|exact B2].
        * exact P2.
        * intros te ce' cs' [J|J] Q.
          -- injection J as <- <- <-. apply at_key_none in Ce. contradiction.
          -- exact (P3 te ce' cs' J Q).
  Qed.

  Lemma tew_sides_ok : forall (E : list (nat * list K)) e v row tes a T,
    In (e, row) (t_map m) -> row = firstn a row ++ tes -> a + length tes = 6 ->
    (forall b, b < 6 -> exists w, at_key b E = Some w /\
       on_side_values m b v w) -> keys_ok T ->
    exists T', tew_sides E a tes T = Some T' /\ keys_ok T' /\
    (forall te w, In (te, w) T' -> In (te, w) T \/
       exists b, on_side m te e b /\ on_side_values m b v w) /\
    (forall te w, In (te, w) T -> In (te, w) T') /\
    (forall te, In te tes -> In te (map fst T')).
  Proof.
    intros E e v row tes. induction tes as [|te tes IH]; intros a T R Eq A H NT.
    - exists T. split; [reflexivity|]. split; [exact NT|]. split; [auto|].
      split; [auto|]. intros te [].
    - cbn [length] in A.
      assert (La : length (firstn a row) = a).
      { apply firstn_length_le.
        assert (Q : length row = 6) by (apply F in R; exact R). lia. }
      assert (Ta : nth_error row a = Some te).
      { rewrite Eq, nth_error_app2 by lia. rewrite La, Nat.sub_diag.
        reflexivity. }
      assert (Eq' : row = firstn (S a) row ++ tes).
      { assert (Q : firstn (S a) row = firstn a row ++ [te]).
        { clear -Ta. revert row Ta. induction a as [|a IH]; intros [|x row] T;
            try discriminate.
          - injection T as ->. reflexivity.
          - cbn [nth_error] in T. cbn [firstn app]. f_equal.
            exact (IH row T). }
        rewrite Q, <- app_assoc. exact Eq. }
      cbn [tew_sides]. destruct (has_key te T) eqn:HT.
      + destruct (IH (S a) T R Eq' ltac:(lia) H NT)
          as [T' [E' [N' [P1 [P2 P3]]]]].
        exists T'. split; [exact E'|]. split; [exact N'|]. split; [exact P1|].
        split; [exact P2|]. intros t [<-|J]; [|exact (P3 t J)].
        apply has_key_in, in_keys in HT. destruct HT as [u HT].
        apply (in_map fst _ (te, u)), P2, HT.
      + destruct (H a ltac:(lia)) as [w [W V]]. rewrite W.
        destruct (IH (S a) (T ++ [(te, w)]) R Eq' ltac:(lia) H)
          as [T' [E' [N' [P1 [P2 P3]]]]].
        { unfold keys_ok. rewrite map_app. cbn [map fst].
          apply NoDup_app_single; [exact NT|]. intro J.
          apply has_key_in in J. congruence. }
        exists T'. split; [exact E'|]. split; [exact N'|]. split; [|split].
        * intros t u J. destruct (P1 t u J) as [B|B]; [|right; exact B].
          apply in_app_iff in B. destruct B as [B|[B|[]]]; [left; exact B|].
          injection B as <- <-. right. exists a. split; [|exact V].
          exists row. auto.
        * intros t u J. apply P2, in_app_iff. left. exact J.
        * intros t [<-|J]; [|exact (P3 t J)].
          apply (in_map fst _ (te, w)), P2, in_app_iff. right. left.
          reflexivity.
  Qed.

  Lemma tew_gathered_ok : forall G (L : list (nat * list K)) T,
    t_dofs m = Gathered G -> local_shapes m L ->
    (forall e, In e (map fst L) -> In e (map fst (t_map m))) -> keys_ok T ->
    exists T', tew_gathered m G L T = Some T' /\ keys_ok T' /\
    (forall te w, In (te, w) T' -> In (te, w) T \/
       exists e a v, on_side m te e a /\ In (e, v) L /\
         on_side_values m a v w) /\
    (forall te w, In (te, w) T -> In (te, w) T') /\
    (forall te e a, on_side m te e a -> In e (map fst L) ->
       In te (map fst T')).
  Proof.
    intros G L T E. revert T.
    induction L as [|[e v] L IH]; intros T SL KL NT.
    - exists T. split; [reflexivity|]. split; [exact NT|]. split; [auto|].
      split; [auto|]. intros te e a _ [].
    - cbn [tew_gathered].
      destruct (distribute_ok m F G v E (SL e v (or_introl eq_refl)))
        as [D [HD W]]. rewrite HD.
      assert (Ie := KL e (or_introl eq_refl)). apply in_keys in Ie.
      destruct Ie as [row R].
      assert (NM : NoDup (map fst (t_map m))) by (apply F).
      rewrite (in_at_key _ _ _ NM R).
      assert (L6 : length row = 6) by (apply F in R; exact R).
      destruct (tew_sides_ok D e v row row 0 T R eq_refl L6 W NT)
        as [T1 [E1 [N1 [P1 [P2 P3]]]]].
      rewrite E1.
      destruct (IH T1) as [T2 [E2 [N2 [Q1 [Q2 Q3]]]]].
      { intros e' v' J. apply (SL e' v'). right. exact J. }
      { intros e' J. apply KL. right. exact J. }
      { exact N1. }
      exists T2. split; [exact E2|]. split; [exact N2|]. split; [|split].
      + intros te w J. destruct (Q1 te w J) as [B|B].
        * destruct (P1 te w B) as [C|[b [C1 C2]]]; [left; exact C|].
          right. exists e, b, v. split; [exact C1|]. split; [left; reflexivity|].
          exact C2.
        * destruct B as [e' [a [v' [B1 [B2 B3]]]]]. right. exists e', a, v'.
          split; [exact B1|]. split; [right; exact B2|exact B3].
      + intros te w J. apply Q2, P2, J.
      + intros te e' a O J. cbn [map fst] in J. destruct J as [<-|J];
          [|exact (Q3 te e' a O J)].
        destruct O as [row' [R' A]].
        rewrite (keys_same _ _ _ _ NM R' R) in A.
        apply nth_error_In in A. apply P3, in_keys in A.
        destruct A as [w A]. apply (in_map fst _ (te, w)), Q2, A.
  Qed.

  Lemma local_2_tew_ok : forall L : list (nat * list K),
    keys_ok L -> local_shapes m L ->
    (forall e, In e (map fst L) -> In e (map fst (t_map m))) ->
    exists T, local_2_tew m L = Some T /\ keys_ok T /\
    (forall te w, In (te, w) T -> exists e a v, on_side m te e a /\
       In (e, v) L /\ on_side_values m a v w /\
       (t_dofs m = Hybrid -> In (te, (e, a)) (t_cp m))) /\
    (forall te, In te (map fst T) <-> exists e, source m te e /\
       In e (map fst L)).
  Proof.
    intros L NL SL KL. unfold local_2_tew, source.
    assert (F' := F). destruct F' as (_ & NC & _ & _ & C1 & C2 & _).
    destruct (t_dofs m) as [|G] eqn:E.
    - destruct (tew_hybrid_ok L (t_cp m) [] E NL SL (fun _ _ I => I) NC)
        as [T [ET [NT [P1 [_ P3]]]]]; [constructor|intros te []|].
      exists T. split; [exact ET|]. split; [exact NT|]. split.
      + intros te w I. destruct (P1 te w I) as [[]|[ce [cs [v [A [B V]]]]]].
        exists ce, cs, v. split; [exact (C2 te ce cs A)|]. auto.
      + intro te. split.
        * intro I. apply in_keys in I. destruct I as [w I].
          destruct (P1 te w I) as [[]|[ce [cs [v [A [B V]]]]]].
          exists ce. split; [exists cs; exact A|].
          apply (in_map fst _ (ce, v)), B.
        * intros [ce [[cs A] B]]. exact (P3 te ce cs A B).
    - destruct (tew_gathered_ok G L [] E SL KL) as [T [ET [NT [P1 [_ P3]]]]];
        [constructor|].
      exists T. split; [exact ET|]. split; [exact NT|]. split.
      + intros te w I. destruct (P1 te w I) as [[]|[e [a [v [A [B V]]]]]].
        exists e, a, v. split; [exact A|]. split; [exact B|].
        split; [exact V|discriminate].
      + intro te. split.
        * intro I. apply in_keys in I. destruct I as [w I].
          destruct (P1 te w I) as [[]|[e [a [v [A [B V]]]]]].
          exists e. split; [exists a; exact A|].
          apply (in_map fst _ (e, v)), B.
        * intros [e [[a A] B]]. exact (P3 te e a A B).
  Qed.
End Tew.
