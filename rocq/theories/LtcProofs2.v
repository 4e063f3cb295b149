(** From sides to elements, and all that a program can do. *)
From Coq Require Import List Arith ZArith Lia Bool.
From Verif Require Import Prelude RingSum AssembleModel AssembleSpec AssembleProofs TewModel TewSpec TewProofs TewProofs2 LtcModel LtcSpec LtcProofs.
Import ListNotations.

Lemma six_keys {A} (E : list (nat * A)) : NoDup (map fst E) -> (forall a w, In (a, w) E -> a < 6) -> length E = 6 -> forall a, a < 6 -> In a (map fst E).
Proof.
  intros N H L a A'. assert (I : incl (seq 0 6) (map fst E)).
  { apply NoDup_length_incl; [exact N|rewrite map_length, seq_length; lia|]. intros b B. apply in_map_iff in B as ([b' w] & <- & B). apply in_seq. specialize (H b' w B). cbn. lia. }
  apply I, in_seq. lia.
Qed.
Section Sides.
  Context {K : CRing} (m : ltform) (F : lt_fits m).
  Lemma Ft2 : fits (as_t m).
  Proof. exact (Ft m F). Qed.
  Lemma onside_lt a n : nth_error (l_onside m) a = Some n -> a < 6.
  Proof. intros H. assert (F' := F). destruct F' as (_ & L & _). rewrite <- L. apply nth_error_Some. congruence. Qed.

  Lemma join_sides_ok (E : dict (list K)) : NoDup (map fst E) -> (forall a w, In (a, w) E -> nth_error (l_onside m) a = Some (length w)) -> length E = 6 ->
    exists v, join_sides m E = Some v /\ length v = l_basis m /\ (sides_agree m E -> forall a w, In (a, w) E -> side_values m a v w).
  Proof.
    intros N S L. unfold join_sides.
    assert (A6 := six_keys E N (fun a w I => onside_lt a _ (S a w I)) L).
    destruct (all_some_forall2 (fun a => at_key a E) (seq 0 6)) as (vs & HV & FV).
    { intros a I. apply in_seq in I. destruct (proj1 (in_keys E a) (A6 a ltac:(lia))) as (w & W). exists w. apply in_at_key; assumption. }
    rewrite HV. assert (Lv : length vs = 6) by (clear - FV; assert (Q : forall (l : list nat) l', Forall2 (fun a b => at_key a E = Some b) l l' -> length l' = length l) by (induction 1; cbn [length]; congruence); apply Q in FV; exact FV).
    assert (NV : forall a w, nth_error vs a = Some w -> a < 6 /\ In (a, w) E).
    { intros a w W. assert (A : a < 6) by (rewrite <- Lv; apply nth_error_Some; congruence). split; [exact A|].
      destruct (all_some_nth (fun a => at_key a E) (seq 0 6) vs a a HV) as (w' & W' & Q); [rewrite nth_error_nth' with (d := 0) by (rewrite seq_length; lia); rewrite seq_nth by lia; reflexivity|].
      rewrite W in W'. injection W' as <-. apply at_key_in, Q. }
    destruct (parts_join (as_t m) Ft2 vs) as (v & V & Lb & C).
    { split; [exact Lv|]. intros a w W. apply S, NV, W. }
    cbn [as_t t_dofs] in V. rewrite V. cbn [as_t t_basis] in Lb. rewrite Lb, Nat.eqb_refl. exists v. split; [reflexivity|]. split; [exact Lb|].
    intros G a w I. apply C.
    - intros a' b' va vb p q d Ha Hb Ea Eb. apply (G a' b' va vb p q d); [apply NV, Ha|apply NV, Hb|exact Ea|exact Eb].
    - assert (A : a < 6) by apply (onside_lt a _ (S a w I)). destruct (nth_error vs a) as [w'|] eqn:W; [|apply nth_error_None in W; lia].
      rewrite (keys_same E a w w' N I (proj2 (NV a w' W))). reflexivity.
  Qed.

  Lemma esw_2_local_ok (T : dict (dict (list K))) : esw_ok m T -> exists L, esw_2_local m T = Some L /\ NoDup (map fst L) /\ lt_shapes m L /\
    (forall e, In e (map fst L) <-> exists E, In (e, E) T /\ length E = 6) /\
    (forall e v, In (e, v) L -> exists E, In (e, E) T /\ length E = 6 /\ join_sides m E = Some v) /\
    (forall e v E, In (e, v) L -> In (e, E) T -> sides_agree m E -> forall a w, In (a, w) E -> side_values m a v w).
  Proof.
    induction T as [|[e E] T IH]; intros (N & H).
    - exists []. split; [reflexivity|]. split; [constructor|]. split; [intros ? ? []|]. split; [|split]; [|intros ? ? []|intros ? ? ? []]. intros e. split; [intros []|]. intros (E & [] & _).
    - cbn [map fst] in N. inversion N as [|? ? X N']; subst. destruct IH as (L & HL & NL & SL & KL & JL & VL).
      { split; [exact N'|]. intros e' E' I. apply H. right. exact I. }
      cbn [esw_2_local]. destruct (H e E (or_introl eq_refl)) as (_ & NE & SE). destruct (length E =? 6) eqn:L6.
      + apply Nat.eqb_eq in L6. destruct (join_sides_ok E NE SE L6) as (v & J & Lb & C). rewrite J, HL. exists ((e, v) :: L). split; [reflexivity|].
        assert (XL : ~ In e (map fst L)). { intros I. apply KL in I as (E' & I & _). apply X. apply (in_map fst _ _ I). }
        split; [constructor; assumption|]. split; [|split; [|split]].
        * intros e' v' [I|I]; [injection I as <- <-; exact Lb|apply (SL e' v' I)].
        * intros e'. cbn [map fst In]. rewrite KL. split.
          -- intros [Q|(E' & I & L')]; [subst e'; exists E; auto|exists E'; auto].
          -- intros (E' & [I|I] & L'); [injection I as <- <-; auto|right; exists E'; auto].
        * intros e' v' [I|I]; [injection I as Q1 Q2; subst e' v'; exists E; split; [left; reflexivity|split; [exact L6|exact J]]|]. destruct (JL e' v' I) as (E' & I' & Q). exists E'. split; [right; exact I'|exact Q].
        * intros e' v' E' [I|I] [I'|I'] G a w W.
          -- injection I as <- <-. injection I' as <-. apply C; assumption.
          -- injection I as <- <-. exfalso. apply X. apply (in_map fst _ _ I').
          -- injection I' as <- <-. exfalso. apply XL. apply (in_map fst _ _ I).
          -- apply (VL e' v' E'); assumption.
      + exists L. apply Nat.eqb_neq in L6. split; [exact HL|]. split; [exact NL|]. split; [exact SL|]. split; [|split].
        * intros e'. rewrite KL. split; intros (E' & I & L').
          -- exists E'. split; [right; exact I|exact L'].
          -- destruct I as [I|I]; [injection I as <- <-; contradiction|]. exists E'. auto.
        * intros e' v' I. destruct (JL e' v' I) as (E' & I' & Q). exists E'. split; [right; exact I'|exact Q].
        * intros e' v' E' I [I'|I'] G a w W; [|apply (VL e' v' E'); assumption]. injection I' as <- <-.
          exfalso. apply X. apply (in_map fst) in I. cbn [fst] in I. apply KL in I as (E' & I & _). apply (in_map fst _ _ I).
  Qed.
  Lemma shape_iff (T : dict (dict (list K))) : NoDup (map fst T) -> (forall e E, In (e, E) T -> NoDup (map fst E)) -> (forallb (esw_shape m) T = true <-> esw_ok m T).
  Proof.
    intros N NE. rewrite forallb_forall. split.
    - intros H. split; [exact N|]. intros e E I. specialize (H (e, E) I). unfold esw_shape in H. cbn [fst snd] in H. apply andb_prop in H as (A & B).
      apply existsb_exists in A as (e' & A & Q). apply Nat.eqb_eq in Q. subst e'. split; [exact A|]. split; [apply (NE e E I)|]. intros a w W.
      rewrite forallb_forall in B. specialize (B (a, w) W). cbn [fst snd] in B. destruct (nth_error (l_onside m) a); [|discriminate B]. apply Nat.eqb_eq in B. congruence.
    - intros (_ & H) [e E] I. destruct (H e E I) as (A & _ & B). unfold esw_shape. cbn [fst snd]. apply andb_true_intro. split.
      + apply existsb_exists. exists e. split; [exact A|apply Nat.eqb_refl].
      + apply forallb_forall. intros [a w] W. cbn [fst snd]. rewrite (B a w W). apply Nat.eqb_refl.
  Qed.
  Theorem set_esw_ok (T : dict (dict (list K))) s : esw_ok m T -> exists L full, set_esw m T s = LDone (mkls (Some L) (Some T) (Some full)) /\
    (full = true <-> forall e E, In (e, E) T -> length E = 6) /\ lt_shapes m L /\ (forall e, In e (map fst L) <-> exists E, In (e, E) T /\ length E = 6) /\
    (forall e v E, In (e, v) L -> In (e, E) T -> sides_agree m E -> forall a w, In (a, w) E -> side_values m a v w).
  Proof.
    intros H. destruct (esw_2_local_ok T H) as (L & HL & _ & SL & KL & _ & VL). unfold set_esw.
    rewrite (proj2 (shape_iff T (proj1 H) (fun e E I => proj1 (proj2 (proj2 H e E I)))) H), HL. eexists. eexists. split; [reflexivity|]. split; [|auto].
    rewrite forallb_forall. split; [intros Q e E I; apply Nat.eqb_eq, (Q (e, E) I)|intros Q [e E] I; apply Nat.eqb_eq, (Q e E I)].
  Qed.

  (** there and back *)
  Lemma join_back (v : list K) E : length v = l_basis m -> esw_of m v = Some E -> join_sides m E = Some v /\ length E = 6.
  Proof.
    intros L HE. destruct (esw_of_ok m F v L) as (E' & HE' & KE & V). rewrite HE in HE'. injection HE' as <-.
    assert (L6 : length E = 6) by (rewrite <- (map_length fst), KE; reflexivity). split; [|exact L6].
    assert (NE : NoDup (map fst E)) by (rewrite KE; apply seq_NoDup).
    destruct (join_sides_ok E NE (fun a w I => proj1 (V a w I)) L6) as (v' & J & L' & C). rewrite J. f_equal.
    apply (vector_unique (as_t m) Ft2 v' v L' L). intros a A.
    destruct (proj1 (in_keys E a)) as (w & W); [rewrite KE; apply in_seq; lia|]. exists w. split; [|exact (V a w W)]. apply C; [|exact W].
    intros a' b' va vb p q d Ia Ib Ea Eb. rewrite <- (proj2 (V a' va Ia) p d Ea). apply (proj2 (V b' vb Ib) q d Eb).
  Qed.
  Theorem back_ok (L : dict (list K)) s : NoDup (map fst L) -> (forall e, In e (map fst L) -> In e (l_els m)) -> lt_shapes m L ->
    exists T, snd (get_esw m (after (set_local_lt m L s))) = Some T /\ forall s', exists full, set_esw m T s' = LDone (mkls (Some L) (Some T) full).
  Proof.
    intros N I H. destruct (get_esw_ok m F L s N H) as (s1 & T & E1 & E2 & E3). exists T. rewrite E1. cbn [after]. rewrite E2. split; [reflexivity|]. intros s'.
    destruct (local_2_esw_ok m F L H) as (T' & HT & KT & F2).
    assert (T' = T).
    { unfold set_local_lt in E1. destruct (forallb _ L); [|discriminate E1]. injection E1 as <-. unfold get_esw in E2. cbn [ls_esw ls_local] in E2. rewrite HT in E2. apply (f_equal snd) in E2. cbn in E2. congruence. }
    subst T'. assert (OK : esw_ok m T).
    { split; [exact (eq_ind_r (fun l => NoDup l) N KT)|]. intros e E J. destruct (Forall2_in_r _ _ _ _ F2 J) as ([e' v] & J' & A & B). cbn [fst snd] in *. subst e'.
      destruct (esw_of_ok m F v (H e v J')) as (E' & HE & KE & V). rewrite B in HE. injection HE as <-. split; [apply I, (in_map fst _ _ J')|]. split; [rewrite KE; apply seq_NoDup|].
      intros a w W. apply (V a w W). }
    assert (Q : esw_2_local m T = Some L).
    { clear - F2 H F. revert H. induction F2 as [|[e v] [e' E] L T (A & B) F2 IH]; intros H; [reflexivity|]. cbn [fst snd] in *. subst e'.
      destruct (join_back v E (H e v (or_introl eq_refl)) B) as (J & L6). cbn [esw_2_local]. rewrite L6, Nat.eqb_refl, J, IH; [reflexivity|]. intros e' v' I. apply (H e' v'). right. exact I. }
    unfold set_esw. rewrite (proj2 (shape_iff T (proj1 OK) (fun e E J => proj1 (proj2 (proj2 OK e E J)))) OK), Q. eexists. reflexivity.
  Qed.

  (** what holds after any operations *)
  Definition sound (s : lstate K) : Prop :=
    match ls_local s with
    | None => True
    | Some L => NoDup (map fst L) /\ lt_shapes m L /\
        match ls_esw s with
        | None => True
        | Some T => forall e v, In (e, v) L -> exists E, at_key e T = Some E /\ forall a, a < 6 -> exists w, at_key a E = Some w /\ side_values m a v w
        end
    end.
  Lemma sound_op s o : sound s -> op_ok m o -> sound (do_op m s o).
  Proof.
    intros S O. destruct o as [L|T|]; cbn [do_op op_ok] in *.
    - unfold set_local_lt. destruct (forallb _ L) eqn:B; cbn [after]; [|unfold sound in *; cbn [ls_local ls_esw]; exact S].
      unfold sound. cbn [ls_local ls_esw]. split; [exact O|]. split; [|exact I]. rewrite forallb_forall in B. intros e v J. apply Nat.eqb_eq, (B (e, v) J).
    - destruct O as (N & A). unfold set_esw. destruct (forallb (esw_shape m) T) eqn:B; cbn [after]; [|exact S].
      apply (shape_iff T N (fun e E J => proj1 (A e E J))) in B. destruct (esw_2_local_ok T B) as (L & HL & NL & SL & KL & JL & VL). rewrite HL. cbn [after].
      unfold sound. cbn [ls_local ls_esw]. split; [exact NL|]. split; [exact SL|]. intros e v J. destruct (JL e v J) as (E & IE & L6 & _). exists E.
      split; [apply in_at_key; assumption|]. intros a Ha. destruct (proj2 B e E IE) as (_ & NE & SE).
      destruct (proj1 (in_keys E a) (six_keys E NE (fun a w I => onside_lt a _ (SE a w I)) L6 a Ha)) as (w & W). exists w. split; [apply in_at_key; assumption|].
      apply (VL e v E J IE (proj2 (A e E IE)) a w W).
    - unfold get_esw. destruct (ls_esw s) as [T|] eqn:ET; [exact S|]. destruct (ls_local s) as [L|] eqn:EL; [|exact S].
      assert (S' := S). unfold sound in S'. rewrite EL in S'. destruct S' as (N & SL & _). destruct (get_esw_ok m F L s N SL) as (s1 & T & E1 & E2 & E3 & E4).
      unfold set_local_lt in E1. destruct (forallb _ L); [|discriminate E1]. injection E1 as <-. unfold get_esw in E2. cbn [ls_esw ls_local ls_full] in E2.
      destruct (local_2_esw m L) as [T'|]; [|discriminate E2]. apply (f_equal snd) in E2. cbn in E2. injection E2 as ->. cbn [fst after].
      unfold sound. cbn [ls_local ls_esw]. split; [exact N|]. split; [exact SL|]. intros e v J.
      destruct (proj1 (in_keys T e)) as (E & IE); [exact (eq_ind_r (fun l => In e l) (in_map fst _ _ J) E3)|]. exists E. assert (NT : NoDup (map fst T)) by (exact (eq_ind_r (fun l => NoDup l) N E3)).
      split; [apply in_at_key; assumption|]. intros a Ha. destruct (E4 e v E J IE) as (KE & V).
      destruct (proj1 (in_keys E a)) as (w & W); [rewrite KE; apply in_seq; lia|]. exists w. split; [|exact (V a w W)]. apply in_at_key; [|exact W]. unfold keys_ok. rewrite KE. apply seq_NoDup.
  Qed.
  Lemma sound_runs (os : list (lt_op K)) : forall s, sound s -> Forall (op_ok m) os -> sound (fold_left (do_op m) os s).
  Proof. induction os as [|o os IH]; intros s S O; [exact S|]. inversion O; subst. cbn [fold_left]. apply IH; [apply sound_op|]; assumption. Qed.
  Theorem on_element_side_ok (os : list (lt_op K)) e a (L : dict (list K)) v : Forall (op_ok m) os -> ls_local (fold_left (do_op m) os new_lstate) = Some L -> In (e, v) L -> a < 6 ->
    exists w, on_element_side m (fold_left (do_op m) os new_lstate) e a = Some w /\ side_values m a v w.
  Proof.
    intros O EL J Ha. assert (S := sound_runs os new_lstate I O). set (s := fold_left (do_op m) os new_lstate) in *. unfold sound in S. rewrite EL in S. destruct S as (N & SL & SE).
    unfold on_element_side. destruct (l_dofs m) as [|G] eqn:D.
    - rewrite EL, (in_at_key L e v N J). assert (F' := F); destruct F' as (_ & L6 & _). destruct (nth_error (l_onside m) a) as [n|] eqn:A; [|apply nth_error_None in A; lia].
      exact (slice_ok (as_t m) Ft2 a n v D (SL e v J) A).
    - destruct (ls_esw s) as [T|].
      + destruct (SE e v J) as (E & HE & V). rewrite HE. apply (V a Ha).
      + rewrite EL, (in_at_key L e v N J). destruct (distribute_ok (as_t m) Ft2 G v D (SL e v J)) as (E & HE & V). destruct (V a Ha) as (w & W & VV).
        assert (F' := F); destruct F' as (_ & _ & D'). rewrite D in D'. destruct D' as (K1 & _). unfold VectorDistributor in HE. destruct (gathering_checker (map snd G)); [|discriminate HE].
        destruct (_ =? _)%Z; [|discriminate HE]. clear - HE W VV. exists w. split; [|exact VV]. clear VV. revert E HE W. induction G as [|[k g] G IH]; intros E HE W; cbn [map all_some] in HE.
        * injection HE as <-. discriminate W.
        * destruct (option_map _ _) as [y|] eqn:Y; [|discriminate HE]. destruct (all_some _) as [r|] eqn:R; [|discriminate HE]. injection HE as <-. cbn [fst snd] in Y.
          destruct (np_take v g) as [t|] eqn:Tk; [|discriminate Y]. injection Y as <-. unfold at_key in *. cbn [lookup] in *. destruct (Nat.eqb _ _); [congruence|]. apply (IH r eq_refl W).
  Qed.
  Theorem full_local_ok (L : dict (list K)) s : NoDup (map fst L) -> (forall e, In e (map fst L) -> In e (l_els m)) ->
    (ls_full (after (set_local_lt m L s)) = Some true <-> forall e, In e (l_els m) -> In e (map fst L)).
  Proof.
    intros N H. assert (Q : ls_full (after (set_local_lt m L s)) = Some (length L =? length (l_els m))) by (unfold set_local_lt; destruct (forallb _ L); reflexivity).
    rewrite Q. clear Q. assert (NE := proj1 F). split.
    - intros E. injection E as E. apply Nat.eqb_eq in E. intros e I. refine (NoDup_length_incl N _ H e I). rewrite map_length. lia.
    - intros G. f_equal. apply Nat.eqb_eq. assert (A := NoDup_incl_length N H). assert (B := NoDup_incl_length NE G). rewrite map_length in *. lia.
  Qed.
End Sides.
