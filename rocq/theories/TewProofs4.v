(** Round trips. *)
From Coq Require Import List Arith ZArith Lia Bool.
From Verif Require Import Prelude RingSum TewModel TewSpec TewProofs TewProofs2
  TewProofs3.
Import ListNotations.

Section Trips.
  Context {K : CRing} (m : tform) (F : fits m).

  Lemma get_tew_ok : forall (L : list (nat * list K)) s,
    keys_ok L -> local_shapes m L ->
    (forall e, In e (map fst L) -> In e (map fst (t_map m))) ->
    exists s1 T, set_local m L s = Done s1 /\
    get_tew m s1 = (Done (mkstate (Some L) (Some T)
      (Some (length L =? length (t_map m)))), Some T) /\
    keys_ok T /\ tew_shapes m T /\
    (forall te, In te (map fst T) <-> exists e, source m te e /\
       In e (map fst L)) /\
    (forall te w, In (te, w) T -> exists e a v, on_side m te e a /\
       In (e, v) L /\ on_side_values m a v w /\
       (t_dofs m = Hybrid -> In (te, (e, a)) (t_cp m))) /\
    (single_valued m L -> forall te w e a v, In (te, w) T ->
       on_side m te e a -> In (e, v) L -> on_side_values m a v w).
  Proof.
    intros L s NL SL KL.
    destruct (proj2 (proj1 (set_local_accepts m L s)) SL) as [s1 E1].
    assert (E1' := proj2 (set_local_accepts m L s) s1 E1).
    destruct (local_2_tew_ok m F L NL SL KL) as [T [ET [NT [V KT]]]].
    exists s1, T. split; [exact E1|]. subst s1. unfold get_tew.
    cbn [s_tew s_local s_full]. rewrite ET. split; [reflexivity|].
    split; [exact NT|].
    assert (Sh : forall te w e a, In (te, w) T -> on_side m te e a ->
      nth_error (t_onside m) a = Some (length w)).
    { intros te w e a I O. destruct (V te w I) as [f [b [v [Of [_ [[A _] _]]]]]].
      destruct F as (_ & N & _ & _ & C & _).
      destruct (C te e a O) as [ce [cs [J B]]].
      destruct (C te f b Of) as [ce' [cs' [J' B']]].
      assert (Q := keys_same _ _ _ _ N J J'). injection Q as <- <-. congruence. }
    split.
    { intros te w I. destruct (V te w I) as [f [b [v [Of [_ [[A _] _]]]]]].
      destruct F as (_ & N & _ & _ & C & _).
      destruct (C te f b Of) as [ce [cs [J B]]]. exists ce, cs.
      split; [exact J|congruence]. }
    split; [exact KT|]. split; [exact V|].
    intros SV te w e a v I O J.
    split; [exact (Sh te w e a I O)|].
    intros p d Ea. destruct (V te w I) as [f [b [u [Of [Ju [[A W] _]]]]]].
    destruct (entry_lt m F a p d Ea) as [_ [_ [n [An Pn]]]].
    rewrite (Sh te w e a I O) in An. injection An as <-.
    destruct (entry_ex m F b _ p A Pn) as [d' Eb].
    rewrite <- (W p d' Eb). exact (SV te e a f b v u p d d' O Of J Ju Ea Eb).
  Qed.

  Lemma source_all : forall te, In te (map fst (t_cp m)) <->
    exists e, source m te e.
  Proof.
    destruct F as (_ & _ & _ & _ & C1 & C2 & _). intro te. unfold source.
    split.
    - intro I. apply in_keys in I. destruct I as [[ce cs] I].
      exists ce. destruct (t_dofs m); [exists cs; exact I|].
      exists cs. exact (C2 te ce cs I).
    - intros [e H]. destruct (t_dofs m).
      + destruct H as [cs I]. apply (in_map fst _ _ I).
      + destruct H as [a O]. destruct (C1 te e a O) as [ce [cs [I _]]].
        apply (in_map fst _ _ I).
  Qed.

  Lemma source_element : forall te e, source m te e ->
    In e (map fst (t_map m)).
  Proof.
    destruct F as (_ & _ & _ & _ & C1 & C2 & _). intros te e. unfold source.
    assert (H : forall a, on_side m te e a -> In e (map fst (t_map m))).
    { intros a [tes [I _]]. apply (in_map fst _ _ I). }
    destruct (t_dofs m); intros [a I]; apply (H a); [apply C2, I|exact I].
  Qed.

  Lemma place_key : forall te e a, on_side m te e a ->
    In te (map fst (t_cp m)).
  Proof.
    intros te e a O. destruct F as (_ & _ & _ & _ & C1 & _).
    destruct (C1 te e a O) as [ce [cs [I _]]]. apply (in_map fst _ _ I).
  Qed.

  (** Elements, trace elements, elements. *)
  Lemma there_and_back : forall (L : list (nat * list K)) s s1 s2 T s3,
    keys_ok L -> local_shapes m L -> covers m L -> single_valued m L ->
    set_local m L s = Done s1 -> get_tew m s1 = (Done s2, Some T) ->
    set_tew m T s2 = Done s3 ->
    exists L', s_local s3 = Some L' /\ same_dict L' L /\ s_full s3 = Some true.
  Proof.
    intros L s s1 s2 T s3 NL SL CL SV E1 E2 E3.
    destruct (get_tew_ok L s NL SL (fun e => proj1 (CL e)))
      as [s1' [T' [E1' [E2' [NT [ST [KT [_ W]]]]]]]].
    rewrite E1 in E1'. injection E1' as <-. rewrite E2 in E2'.
    injection E2' as -> ->.
    destruct (set_tew_ok m F T' (mkstate (Some L) (Some T')
      (Some (length L =? length (t_map m)))) NT ST)
      as [L' [f [E [NL' [SL' [KL' [Ff V]]]]]]].
    rewrite E in E3. injection E3 as <-. exists L'.
    split; [reflexivity|].
    assert (All : forall te, In te (map fst (t_cp m)) -> In te (map fst T')).
    { intros te I. apply KT. apply source_all in I. destruct I as [e I].
      exists e. split; [exact I|]. apply CL, (source_element te e I). }
    assert (K1 : forall e, In e (map fst (t_map m)) -> In e (map fst L')).
    { intros e I. apply in_keys in I. destruct I as [tes I].
      apply KL'. exists tes. split; [exact I|]. intros te J. apply All.
      apply In_nth_error in J. destruct J as [a J].
      apply (place_key te e a). exists tes. auto. }
    assert (K2 : forall e, In e (map fst L') -> In e (map fst (t_map m))).
    { intros e I. apply KL' in I. destruct I as [tes [I _]].
      apply (in_map fst _ _ I). }
    assert (Cf : conforming m T').
    { intros e a b ta tb va vb p q d Oa Ob Ia Ib Ea Eb.
      assert (Ie : In e (map fst L)).
      { apply CL. destruct Oa as [tes [I _]]. apply (in_map fst _ _ I). }
      apply in_keys in Ie. destruct Ie as [v Ie].
      destruct (W SV ta va e a v Ia Oa Ie) as [_ Wa].
      destruct (W SV tb vb e b v Ib Ob Ie) as [_ Wb].
      rewrite <- (Wa p d Ea). exact (Wb q d Eb). }
    assert (Eq : forall e v v', In (e, v) L' -> In (e, v') L -> v = v').
    { intros e v v' I I'. apply (vector_unique m F).
      - exact (SL' e v I).
      - exact (SL e v' I').
      - intros a A. assert (Ie := K2 e (in_map fst _ _ I)).
        apply in_keys in Ie. destruct Ie as [tes Ie].
        assert (L6 : length tes = 6) by (apply F in Ie; exact Ie).
        destruct (nth_error tes a) as [te|] eqn:Te;
          [|apply nth_error_None in Te; lia].
        assert (O : on_side m te e a) by (exists tes; auto).
        assert (It := All te (place_key te e a O)). apply in_keys in It.
        destruct It as [w It]. exists w.
        split; [exact (V Cf e v te a w I O It)|].
        exact (W SV te w e a v' It O I'). }
    split.
    - intros e v. split; intro I.
      + assert (J := K2 e (in_map fst _ _ I)). apply CL, in_keys in J.
        destruct J as [v' J]. rewrite (Eq e v v' I J). exact J.
      + assert (J := in_map fst _ _ I). cbn [fst] in J.
        apply CL, K1, in_keys in J.
        destruct J as [v' J]. rewrite <- (Eq e v' v J I). exact J.
    - cbn [s_full]. f_equal. apply Ff. exact K1.
  Qed.

  (** For hybrid forms only then. *)
  Lemma there_and_back_only : forall (L : list (nat * list K)) s s1 s2 T s3 L',
    t_dofs m = Hybrid -> keys_ok L -> local_shapes m L -> covers m L ->
    set_local m L s = Done s1 -> get_tew m s1 = (Done s2, Some T) ->
    set_tew m T s2 = Done s3 -> s_local s3 = Some L' -> same_dict L' L ->
    single_valued m L.
  Proof.
    intros L s s1 s2 T s3 L' H NL SL CL E1 E2 E3 E4 SD.
    destruct (get_tew_ok L s NL SL (fun e => proj1 (CL e)))
      as [s1' [T' [E1' [E2' [NT [ST [KT [_ _]]]]]]]].
    rewrite E1 in E1'. injection E1' as <-. rewrite E2 in E2'.
    injection E2' as -> ->.
    destruct (set_tew_ok m F T' (mkstate (Some L) (Some T')
      (Some (length L =? length (t_map m)))) NT ST)
      as [L'' [f [E [_ [_ [_ [_ V]]]]]]].
    rewrite E in E3. injection E3 as <-. cbn [s_local] in E4.
    injection E4 as ->.
    assert (Cf := hybrid_conforming m F T' H NT).
    intros te e a g b v w p d d' Oa Ob Iv Iw Ea Eb.
    assert (It : In te (map fst T')).
    { apply KT. destruct (proj1 (source_all te) (place_key te e a Oa)) as [c I].
      exists c. split; [exact I|]. apply CL, (source_element te c I). }
    apply in_keys in It. destruct It as [u It].
    destruct (V Cf e v te a u (proj2 (SD e v) Iv) Oa It) as [_ Va].
    destruct (V Cf g w te b u (proj2 (SD g w) Iw) Ob It) as [_ Vb].
    rewrite (Va p d Ea), (Vb p d' Eb). reflexivity.
  Qed.

  (** Trace elements, elements, trace elements. *)
  Lemma back_and_there : forall (T : list (nat * list K)) s s1 L s2,
    keys_ok T -> tew_shapes m T ->
    (forall te, In te (map fst (t_cp m)) -> In te (map fst T)) ->
    conforming m T ->
    set_tew m T s = Done s1 -> s_local s1 = Some L ->
    set_local m L s1 = Done s2 ->
    exists s3 T', get_tew m s2 = (Done s3, Some T') /\ same_dict T' T.
  Proof.
    intros T s s1 L s2 NT ST All Cf E1 E2 E3.
    destruct (set_tew_ok m F T s NT ST)
      as [L' [f [E [NL [SL [KL [_ V]]]]]]].
    rewrite E in E1. injection E1 as <-. cbn [s_local] in E2.
    injection E2 as <-.
    assert (K2 : forall e, In e (map fst L') -> In e (map fst (t_map m))).
    { intros e I. apply KL in I. destruct I as [tes [I _]].
      apply (in_map fst _ _ I). }
    assert (K1 : forall e, In e (map fst (t_map m)) -> In e (map fst L')).
    { intros e I. apply in_keys in I. destruct I as [tes I].
      apply KL. exists tes. split; [exact I|]. intros te J. apply All.
      apply In_nth_error in J. destruct J as [a J].
      apply (place_key te e a). exists tes. auto. }
    destruct (get_tew_ok L' (mkstate (Some L') (Some T) (Some f)) NL SL K2)
      as [s1' [T' [E1' [E2' [NT' [ST' [KT' [W _]]]]]]]].
    rewrite E3 in E1'. injection E1' as <-. eexists. exists T'.
    split; [exact E2'|].
    assert (Eq : forall te w w', In (te, w) T' -> In (te, w') T -> w = w').
    { intros te w w' I I'. destruct (W te w I) as [e [a [v [O [J [Q _]]]]]].
      apply (values_unique m F a v); [exact (SL e v J)|exact Q|].
      exact (V Cf e v te a w' J O I'). }
    intros te w. split; intro I.
    - assert (J : In te (map fst T)).
      { destruct (W te w I) as [e [a [v [O _]]]]. exact (All te (place_key te e a O)). }
      apply in_keys in J. destruct J as [w' J].
      rewrite (Eq te w w' I J). exact J.
    - assert (J : In te (map fst T')).
      { apply KT'. destruct (ST te w I) as [ce [cs [Ic _]]].
        assert (Is := in_map fst _ _ Ic). cbn [fst] in Is.
        apply source_all in Is. destruct Is as [e Is].
        exists e. split; [exact Is|]. apply K1, (source_element te e Is). }
      apply in_keys in J. destruct J as [w' J].
      rewrite <- (Eq te w' w J I). exact J.
  Qed.
End Trips.
