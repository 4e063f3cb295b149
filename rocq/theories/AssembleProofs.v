(** Proofs for C07-C09. *)
From Coq Require Import List Arith ZArith Lia Bool Permutation.
From Verif Require Import Prelude PreludeProofs RingSum AssembleModel AssembleSpec.
Import ListNotations.

Lemma all_some_map {A B} (f : A -> option B) l r :
  all_some (map f l) = Some r <-> Forall2 (fun a b => f a = Some b) l r.
Proof.
  revert r. induction l as [|a l IH]; simpl; intros r.
  - split; intros H; [injection H as <-; constructor|inversion H; reflexivity].
  - destruct (f a) as [b|] eqn:E.
    + destruct (all_some (map f l)) as [r'|] eqn:E'.
      * split; intros H.
        -- injection H as <-. constructor; [assumption|]. apply IH. reflexivity.
        -- inversion H; subst. apply IH in H4. congruence.
      * split; intros H; [discriminate|]. inversion H; subst. apply IH in H4. discriminate.
    + split; intros H; [discriminate|]. inversion H; subst. congruence.
Qed.

Lemma all_some_map_total {A B} (f : A -> option B) l :
  (forall a, In a l -> f a <> None) -> exists r, all_some (map f l) = Some r.
Proof.
  induction l as [|a l IH]; simpl; intros H; [eauto|].
  destruct (f a) eqn:E; [|exfalso; exact (H a (or_introl eq_refl) E)].
  destruct IH as (r & ->); [auto|]. eauto.
Qed.

Lemma fold_max_spec l x : (In (fold_left Z.max l x) (x :: l)) /\
  (forall y, In y (x :: l) -> (y <= fold_left Z.max l x)%Z).
Proof.
  revert x. induction l as [|a l IH]; simpl; intros x.
  - split; [auto|]. intros y [->|[]]. lia.
  - destruct (IH (Z.max x a)) as (I & B). split.
    + simpl in I. destruct I as [E|I]; [|auto].
      rewrite <- E. destruct (Z.max_spec x a) as [[_ ->]|[_ ->]]; auto.
    + assert (Z.max x a <= fold_left Z.max l (Z.max x a))%Z by (apply B; left; reflexivity).
      intros y [->|[->|Hy]]; [lia|lia|]. apply B. right. assumption.
Qed.

Lemma fold_min_spec l x : (In (fold_left Z.min l x) (x :: l)) /\
  (forall y, In y (x :: l) -> (fold_left Z.min l x <= y)%Z).
Proof.
  revert x. induction l as [|a l IH]; simpl; intros x.
  - split; [auto|]. intros y [->|[]]. lia.
  - destruct (IH (Z.min x a)) as (I & B). split.
    + simpl in I. destruct I as [E|I]; [|auto].
      rewrite <- E. destruct (Z.min_spec x a) as [[_ ->]|[_ ->]]; auto.
    + assert (fold_left Z.min l (Z.min x a) <= Z.min x a)%Z by (apply B; left; reflexivity).
      intros y [->|[->|Hy]]; [lia|lia|]. apply B. right. assumption.
Qed.

Lemma zmax_spec l m : zmax l = Some m <-> In m l /\ forall x, In x l -> (x <= m)%Z.
Proof.
  destruct l as [|a l]; simpl zmax.
  - split; [discriminate|]. intros [[] _].
  - destruct (fold_max_spec l a) as (I & B). split.
    + intros E. injection E as <-. auto.
    + intros (I' & B'). f_equal. apply Z.le_antisymm; auto.
Qed.

Lemma zmin_spec l m : zmin l = Some m <-> In m l /\ forall x, In x l -> (m <= x)%Z.
Proof.
  destruct l as [|a l]; simpl zmin.
  - split; [discriminate|]. intros [[] _].
  - destruct (fold_min_spec l a) as (I & B). split.
    + intros E. injection E as <-. auto.
    + intros (I' & B'). f_equal. apply Z.le_antisymm; auto.
Qed.

Lemma Forall2_in_l {A B} (P : A -> B -> Prop) l r a :
  Forall2 P l r -> In a l -> exists b, In b r /\ P a b.
Proof. induction 1; simpl; [tauto|]. intros [->|I]; [eauto|]. destruct (IHForall2 I) as (b & ? & ?); eauto. Qed.
Lemma Forall2_in_r {A B} (P : A -> B -> Prop) l r b :
  Forall2 P l r -> In b r -> exists a, In a l /\ P a b.
Proof. induction 1; simpl; [tauto|]. intros [->|I]; [eauto|]. destruct (IHForall2 I) as (a & ? & ?); eauto. Qed.

Lemma in_zrange z n : (0 <= n)%Z -> In z (map Z.of_nat (seq 0 (Z.to_nat n))) <-> (0 <= z < n)%Z.
Proof.
  intros Hn. rewrite in_map_iff. split.
  - intros (k & <- & I). apply in_seq in I. lia.
  - intros H. exists (Z.to_nat z). split; [lia|]. apply in_seq. lia.
Qed.

Lemma NoDup_zrange n : NoDup (map Z.of_nat (seq 0 n)).
Proof. apply FinFun.Injective_map_NoDup; [intros x y; lia|apply seq_NoDup]. Qed.

Lemma checker_iff rows n : gathering_checker rows = Some n <-> numbers_0_to rows n.
Proof.
  unfold gathering_checker. split.
  - destruct (all_some (map zmax rows)) as [MX|] eqn:EX; [|discriminate].
    destruct (all_some (map zmin rows)) as [MN|] eqn:EN; [|discriminate].
    destruct (zmax MX) as [M|] eqn:EM; [|discriminate].
    destruct (zmin MN) as [m|] eqn:Em; [|discriminate].
    destruct ((m =? 0)%Z && _) eqn:E; [|discriminate]. intros H. injection H as <-.
    apply andb_true_iff in E. destruct E as (E0 & E1).
    apply Z.eqb_eq in E0, E1. subst m.
    apply all_some_map in EX, EN. apply zmax_spec in EM. apply zmin_spec in Em.
    destruct EM as (IM & BM), Em as (Im & Bm).
    assert (HB : forall z, In z (concat rows) -> (0 <= z <= M)%Z).
    { intros z Hz. apply in_concat in Hz. destruct Hz as (g & Hg & Hz).
      destruct (Forall2_in_l _ _ _ _ EX Hg) as (a & Ia & Ea).
      destruct (Forall2_in_l _ _ _ _ EN Hg) as (b & Ib & Eb).
      apply zmax_spec in Ea. apply zmin_spec in Eb.
      destruct Ea as (_ & Ea), Eb as (_ & Eb).
      specialize (Ea _ Hz). specialize (Eb _ Hz). specialize (BM _ Ia). specialize (Bm _ Ib). lia. }
    assert (0 <= M)%Z.
    { destruct (Forall2_in_r _ _ _ _ EX IM) as (g & Hg & Eg). apply zmax_spec in Eg.
      destruct Eg as (Eg & _). assert (In M (concat rows)) by (apply in_concat; eauto).
      apply HB in H. lia. }
    split; [lia|]. split.
    + intros g Hg ->. destruct (Forall2_in_l _ _ _ _ EX Hg) as (a & _ & Ea). discriminate.
    + intros z. split; [intros Hz; apply HB in Hz; lia|]. intros Hz.
      apply (in_zrange z (M + 1)) in Hz; [|lia].
      apply (NoDup_length_incl (NoDup_nodup Z.eq_dec (concat rows))) in Hz.
      * apply nodup_In in Hz. assumption.
      * rewrite map_length, seq_length. lia.
      * intros y Hy. apply nodup_In in Hy. apply in_zrange; [lia|]. apply HB in Hy. lia.
  - intros (Hn & HE & HC).
    assert (HX : forall g, In g rows -> zmax g <> None) by (intros [|a g] Hg; [exfalso; apply (HE []); auto|discriminate]).
    assert (HN : forall g, In g rows -> zmin g <> None) by (intros [|a g] Hg; [exfalso; apply (HE []); auto|discriminate]).
    destruct (all_some_map_total _ _ HX) as (MX & EX). destruct (all_some_map_total _ _ HN) as (MN & EN).
    rewrite EX, EN. apply all_some_map in EX, EN.
    assert (EM : zmax MX = Some (n - 1)%Z).
    { apply zmax_spec. assert (HI : In (n - 1)%Z (concat rows)) by (apply HC; lia).
      apply in_concat in HI. destruct HI as (g & Hg & Hz).
      split.
      - destruct (Forall2_in_l _ _ _ _ EX Hg) as (a & Ia & Ea). apply zmax_spec in Ea. destruct Ea as (Ia' & Ea).
        assert (In a (concat rows)) by (apply in_concat; eauto). apply HC in H.
        specialize (Ea _ Hz). replace (n - 1)%Z with a by lia. assumption.
      - intros x Hx. destruct (Forall2_in_r _ _ _ _ EX Hx) as (h & Hh & Eh). apply zmax_spec in Eh.
        destruct Eh as (Eh & _). assert (In x (concat rows)) by (apply in_concat; eauto). apply HC in H. lia. }
    assert (Em : zmin MN = Some 0%Z).
    { apply zmin_spec. assert (HI : In 0%Z (concat rows)) by (apply HC; lia).
      apply in_concat in HI. destruct HI as (g & Hg & Hz).
      split.
      - destruct (Forall2_in_l _ _ _ _ EN Hg) as (a & Ia & Ea). apply zmin_spec in Ea. destruct Ea as (Ia' & Ea).
        assert (In a (concat rows)) by (apply in_concat; eauto). apply HC in H.
        specialize (Ea _ Hz). replace 0%Z with a by lia. assumption.
      - intros x Hx. destruct (Forall2_in_r _ _ _ _ EN Hx) as (h & Hh & Eh). apply zmin_spec in Eh.
        destruct Eh as (Eh & _). assert (In x (concat rows)) by (apply in_concat; eauto). apply HC in H. lia. }
    rewrite EM, Em. simpl.
    assert (EL : length (nodup Z.eq_dec (concat rows)) = Z.to_nat n).
    { transitivity (length (map Z.of_nat (seq 0 (Z.to_nat n)))); [|rewrite map_length, seq_length; reflexivity].
      apply Permutation_length. apply NoDup_Permutation; [apply NoDup_nodup|apply NoDup_zrange|].
      intros z. rewrite nodup_In, in_zrange by lia. apply HC. }
    rewrite EL. replace (Z.of_nat (Z.to_nat n) =? n - 1 + 1)%Z with true by (symmetry; apply Z.eqb_eq; lia).
    f_equal. lia.
Qed.

Lemma numbers_unique rows n m : numbers_0_to rows n -> numbers_0_to rows m -> n = m.
Proof. intros H1 H2. apply checker_iff in H1, H2. congruence. Qed.

(** * numpy writes *)
Section Put.
  Context {A : Type}.

  Lemma np_put_list_app (arr : list A) w1 w2 :
    np_put_list arr (w1 ++ w2) =
    match np_put_list arr w1 with Some a => np_put_list a w2 | None => None end.
  Proof.
    revert arr. induction w1 as [|[i x] w1 IH]; simpl; intros arr; [reflexivity|].
    destruct (np_set arr i x); [apply IH|reflexivity].
  Qed.

  Lemma np_set_ok (arr : list A) i x : (0 <= i < Z.of_nat (length arr))%Z ->
    np_set arr i x = Some (update arr (Z.to_nat i) x).
  Proof. intros H. unfold np_set. replace (_ && _) with true; [reflexivity|]. symmetry. apply andb_true_iff. lia. Qed.

  Lemma np_put_list_ok (ws : list (Z * A)) : forall arr,
    (forall i, In i (map fst ws) -> (0 <= i < Z.of_nat (length arr))%Z) ->
    exists out, np_put_list arr ws = Some out /\ length out = length arr /\
      forall d, d < length arr ->
        (~ In (Z.of_nat d) (map fst ws) /\ nth_error out d = nth_error arr d) \/
        (exists ws1 x ws2, ws = ws1 ++ (Z.of_nat d, x) :: ws2 /\
           ~ In (Z.of_nat d) (map fst ws2) /\ nth_error out d = Some x).
  Proof.
    induction ws as [|[i x] ws IH]; intros arr H; simpl.
    - exists arr. split; [reflexivity|]. split; [reflexivity|]. auto.
    - rewrite np_set_ok by (apply H; left; reflexivity).
      assert (Hi := H i (or_introl eq_refl)).
      destruct (IH (update arr (Z.to_nat i) x)) as (out & E & L & S).
      { intros j Hj. rewrite length_update. apply H. right. assumption. }
      rewrite length_update in L. exists out. split; [assumption|]. split; [assumption|].
      intros d Hd. rewrite length_update in S. destruct (S d Hd) as [(N & V)|(w1 & y & w2 & Ew & N & V)].
      + destruct (Z.eq_dec i (Z.of_nat d)) as [->|D].
        * right. exists [], x, ws. split; [reflexivity|]. split; [assumption|].
          rewrite V. rewrite Nat2Z.id. apply nth_error_update_eq. assumption.
        * left. split; [tauto|]. rewrite V. apply nth_error_update_neq. lia.
      + right. exists ((i, x) :: w1), y, w2. rewrite Ew. auto.
  Qed.
End Put.

Section Vec.
  Variable Key : Type.
  Variable keqb : Key -> Key -> bool.
  Variable K : CRing.
  Add Ring Kring : (Rth K).
  Local Notation data_for := (@data_for Key keqb K).
  Local Notation data_of := (data_of keqb).
  Local Notation writes := (@writes Key keqb K).
  Local Notation blocks_for := (@blocks_for Key keqb K).


  Lemma broadcast_eq {A} (v : list A) n : length v = n -> np_broadcast v n = Some v.
  Proof. intros <-. unfold np_broadcast. rewrite Nat.eqb_refl. reflexivity. Qed.

  Lemma vloop_replace G D : (forall k g, In (k, g) G -> exists v, lookup keqb k D = Some v /\ length v = length g) ->
    forall out, vloop Key keqb K Replace G D out = np_put_list out (writes G D).
  Proof.
    induction G as [|[k g] G IH]; intros H out; [reflexivity|].
    simpl. unfold AssembleSpec.writes. simpl. unfold AssembleSpec.data_of at 1.
    destruct (H k g (or_introl eq_refl)) as (v & -> & L).
    rewrite np_put_list_app. unfold np_put. rewrite broadcast_eq by assumption.
    destruct (np_put_list out (combine g v)); [|reflexivity].
    apply IH. intros. apply H. right. assumption.
  Qed.

  Lemma map_fst_combine {A B} (l : list A) (m : list B) : length l = length m -> map fst (combine l m) = l.
  Proof. revert m. induction l; destruct m; simpl; intros; try lia; f_equal; auto. Qed.
  Lemma map_snd_combine {A B} (l : list A) (m : list B) : length l = length m -> map snd (combine l m) = m.
  Proof. revert m. induction l; destruct m; simpl; intros; try lia; f_equal; auto. Qed.

  Lemma writes_fst G D : (forall k g, In (k, g) G -> exists v, lookup keqb k D = Some v /\ length v = length g) ->
    map fst (writes G D) = concat (map snd G).
  Proof.
    induction G as [|[k g] G IH]; intros H; [reflexivity|].
    unfold AssembleSpec.writes. simpl. rewrite map_app. f_equal.
    - unfold AssembleSpec.data_of. destruct (H k g (or_introl eq_refl)) as (v & -> & L). apply map_fst_combine. auto.
    - apply IH. intros. apply H. right. assumption.
  Qed.

  Lemma vector_replace G D n : numbers_0_to (map snd G) n -> data_for G D ->
    exists out, VectorAssembler Key keqb K G Replace D = Some out /\
      length out = Z.to_nat n /\
      forall d, d < Z.to_nat n ->
        exists ws1 x ws2, writes G D = ws1 ++ (Z.of_nat d, x) :: ws2 /\
          ~ In (Z.of_nat d) (map fst ws2) /\ nth_error out d = Some x.
  Proof.
    intros HN (HL & HD). unfold VectorAssembler. rewrite (proj2 (checker_iff _ _) HN).
    rewrite HL, Nat.eqb_refl, vloop_replace by assumption.
    destruct HN as (Hn & _ & HC).
    destruct (np_put_list_ok (writes G D) (repeat r0 (Z.to_nat n))) as (out & E & L & S).
    { rewrite repeat_length, writes_fst by assumption. intros i Hi. apply HC in Hi. lia. }
    rewrite repeat_length in L, S. exists out. split; [assumption|]. split; [assumption|].
    intros d Hd. destruct (S d Hd) as [(N & _)|P]; [|assumption].
    exfalso. apply N. rewrite writes_fst by assumption. apply HC. lia.
  Qed.

  Lemma take_map (arr : list K) g : (forall i, In i g -> (0 <= i < Z.of_nat (length arr))%Z) ->
    np_take arr g = Some (map (fun i => nth (Z.to_nat i) arr r0) g).
  Proof.
    intros H. unfold np_take. apply all_some_map. induction g as [|i g IH]; constructor.
    - unfold np_get. assert (0 <= i < Z.of_nat (length arr))%Z by (apply H; left; reflexivity).
      replace (0 <=? i)%Z with true by (symmetry; lia). apply nth_error_nth'. lia.
    - apply IH. intros. apply H. right. assumption.
  Qed.

  Lemma put_add (arr0 : list K) : forall g v arr, NoDup g -> length v = length g ->
    (forall i, In i g -> (0 <= i < Z.of_nat (length arr))%Z) ->
    (forall i, In i g -> nth (Z.to_nat i) arr r0 = nth (Z.to_nat i) arr0 r0) ->
    exists out, np_put_list arr (combine g (map (fun p => radd (fst p) (snd p))
        (combine (map (fun i => nth (Z.to_nat i) arr0 r0) g) v))) = Some out /\
      length out = length arr /\
      forall d, nth d out r0 = radd (nth d arr r0) (contrib g v (Z.of_nat d)).
  Proof.
    induction g as [|i g IH]; intros v arr N L R AG.
    - exists arr. simpl. split; [reflexivity|]. split; [reflexivity|]. intros d. unfold contrib. simpl.
      rewrite bsum_nil. ring.
    - destruct v as [|x v]; [discriminate|]. inversion N; subst. simpl.
      assert (Ri := R i (or_introl eq_refl)).
      rewrite np_set_ok by assumption.
      destruct (IH v (update arr (Z.to_nat i) (radd (nth (Z.to_nat i) arr0 r0) x))) as (out & E & Lo & S).
      + assumption.
      + simpl in L. lia.
      + rewrite length_update. intros. apply R. right. assumption.
      + intros j Hj. rewrite nth_update_neq; [apply AG; right; assumption|].
        assert (j <> i) by (intros ->; contradiction). specialize (R j (or_intror Hj)). lia.
      + rewrite length_update in Lo. exists out. split; [assumption|]. split; [assumption|].
        intros d. rewrite S. unfold contrib. simpl combine. rewrite bsum_cons. simpl.
        destruct (Z.eqb_spec i (Z.of_nat d)) as [->|D].
        * assert (A0 := AG (Z.of_nat d) (or_introl eq_refl)). rewrite Nat2Z.id in *.
          rewrite nth_update_eq by lia. rewrite <- A0. ring.
        * rewrite nth_update_neq by lia. ring.
  Qed.

  Lemma iadd_ok (arr : list K) g v : NoDup g -> length v = length g ->
    (forall i, In i g -> (0 <= i < Z.of_nat (length arr))%Z) ->
    exists out, np_iadd K arr g v = Some out /\ length out = length arr /\
      forall d, nth d out r0 = radd (nth d arr r0) (contrib g v (Z.of_nat d)).
  Proof.
    intros N L R. unfold np_iadd. rewrite take_map by assumption. rewrite broadcast_eq by assumption.
    unfold np_put. rewrite broadcast_eq by (rewrite map_length, combine_length, map_length; lia).
    apply put_add; auto.
  Qed.

  Lemma vloop_add D : forall G out,
    (forall k g, In (k, g) G -> exists v, lookup keqb k D = Some v /\ length v = length g) ->
    (forall k g, In (k, g) G -> NoDup g) ->
    (forall i, In i (concat (map snd G)) -> (0 <= i < Z.of_nat (length out))%Z) ->
    exists out', vloop Key keqb K Add G D out = Some out' /\ length out' = length out /\
      forall d, nth d out' r0 = radd (nth d out r0)
        (bsum G (fun kg => contrib (snd kg) (data_of D (fst kg)) (Z.of_nat d))).
  Proof.
    induction G as [|[k g] G IH]; intros out HD HN HR.
    - exists out. simpl. split; [reflexivity|]. split; [reflexivity|]. intros d. rewrite bsum_nil. ring.
    - simpl. destruct (HD k g (or_introl eq_refl)) as (v & Ev & L). rewrite Ev.
      destruct (iadd_ok out g v) as (o1 & E1 & L1 & S1).
      { apply (HN k). left. reflexivity. }
      { assumption. }
      { intros i Hi. apply HR. simpl. apply in_or_app. auto. }
      rewrite E1. destruct (IH o1) as (o2 & E2 & L2 & S2).
      { intros. apply HD. right. assumption. }
      { intros k' g' H. apply (HN k'). right. assumption. }
      { rewrite L1. intros i Hi. apply HR. simpl. apply in_or_app. auto. }
      exists o2. split; [assumption|]. split; [congruence|]. intros d. rewrite S2, S1, bsum_cons. simpl.
      unfold AssembleSpec.data_of at 2. rewrite Ev. ring.
  Qed.

  Lemma nth_repeat_0 (x : K) n d : nth d (repeat x n) x = x.
  Proof. revert d. induction n; destruct d; simpl; auto. Qed.

  Lemma vector_add G D n : numbers_0_to (map snd G) n -> data_for G D ->
    (forall k g, In (k, g) G -> NoDup g) ->
    exists out, VectorAssembler Key keqb K G Add D = Some out /\ length out = Z.to_nat n /\
      forall d, d < Z.to_nat n -> nth_error out d =
        Some (bsum G (fun kg => bsum (combine (snd kg) (data_of D (fst kg)))
                                  (fun p => if (fst p =? Z.of_nat d)%Z then snd p else r0))).
  Proof.
    intros HN (HL & HD) HND. unfold VectorAssembler. rewrite (proj2 (checker_iff _ _) HN).
    rewrite HL, Nat.eqb_refl. destruct HN as (Hn & _ & HC).
    destruct (vloop_add D G (repeat r0 (Z.to_nat n))) as (out & E & L & S); try assumption.
    { intros i Hi. rewrite repeat_length. apply HC in Hi. lia. }
    rewrite repeat_length in L. exists out. split; [assumption|]. split; [assumption|].
    intros d Hd. rewrite (nth_error_nth' out r0) by lia. rewrite S, nth_repeat_0. f_equal.
    unfold contrib. ring.
  Qed.

  Lemma vector_reject G m D : (forall n, ~ numbers_0_to (map snd G) n) ->
    VectorAssembler Key keqb K G m D = None /\ forall v, VectorDistributor Key K G v = None.
  Proof.
    intros H. unfold VectorAssembler, VectorDistributor.
    destruct (gathering_checker (map snd G)) as [n|] eqn:E; [|auto].
    apply checker_iff in E. exfalso. exact (H n E).
  Qed.

  (** * distributor *)
  Hypothesis keqb_spec : forall a b, keqb a b = true <-> a = b.

  Lemma lookup_in {B} (D : list (Key * B)) k v : NoDup (map fst D) -> In (k, v) D -> lookup keqb k D = Some v.
  Proof.
    induction D as [|[k' v'] D IH]; simpl; intros N I; [tauto|]. destruct I as [E|I].
    - injection E as -> ->. rewrite (proj2 (keqb_spec k k) eq_refl). reflexivity.
    - inversion N; subst. destruct (keqb k k') eqn:E; [|auto].
      apply keqb_spec in E. subst. exfalso. apply H1. apply (in_map fst) in I. assumption.
  Qed.

  Lemma distribute_ok G v n : numbers_0_to (map snd G) n -> length v = Z.to_nat n ->
    VectorDistributor Key K G v =
    Some (map (fun kg => (fst kg, map (fun i => nth (Z.to_nat i) v r0) (snd kg))) G).
  Proof.
    intros HN HL. unfold VectorDistributor. rewrite (proj2 (checker_iff _ _) HN).
    destruct HN as (Hn & _ & HC).
    replace (Z.of_nat (length v) =? n)%Z with true by (symmetry; lia).
    apply all_some_map. 
    assert (HR : forall kg, In kg G -> forall i, In i (snd kg) -> (0 <= i < Z.of_nat (length v))%Z).
    { intros kg Hk i Hi. assert (In i (concat (map snd G))) by (apply in_concat; eauto using in_map).
      apply HC in H. lia. }
    clear - HR. induction G as [|[k g] G IH]; constructor.
    - simpl. rewrite take_map; [reflexivity|]. apply (HR (k, g)). left. reflexivity.
    - apply IH. intros. eapply HR; [right|]; eassumption.
  Qed.

  Definition dist (G : list (Key * list Z)) (v : list K) :=
    map (fun kg => (fst kg, map (fun i => nth (Z.to_nat i) v r0) (snd kg))) G.

  Lemma dist_lookup G v k g : NoDup (map fst G) -> In (k, g) G ->
    lookup keqb k (dist G v) = Some (map (fun i => nth (Z.to_nat i) v r0) g).
  Proof.
    intros N I. apply lookup_in.
    - unfold dist. rewrite map_map. simpl. assumption.
    - unfold dist. apply (in_map (fun kg => (fst kg, map (fun i => nth (Z.to_nat i) v r0) (snd kg)))) in I. assumption.
  Qed.

  Lemma dist_data_for G v : NoDup (map fst G) -> data_for G (dist G v).
  Proof.
    intros N. split; [apply map_length|]. intros k g I. eexists. split; [apply dist_lookup; eassumption|].
    apply map_length.
  Qed.

  Lemma assemble_distribute_replace G v n : NoDup (map fst G) -> numbers_0_to (map snd G) n ->
    length v = Z.to_nat n ->
    exists D, VectorDistributor Key K G v = Some D /\ VectorAssembler Key keqb K G Replace D = Some v.
  Proof.
    intros N HN HL. exists (dist G v). split; [eapply distribute_ok; eassumption|].
    destruct (vector_replace G (dist G v) n) as (out & E & L & S); auto using dist_data_for.
    rewrite E. f_equal. apply list_ext_nth_error. intros d.
    destruct (le_lt_dec (Z.to_nat n) d) as [H|H].
    - rewrite !(proj2 (nth_error_None _ _)) by lia. reflexivity.
    - destruct (S d H) as (w1 & x & w2 & Ew & _ & ->).
      assert (I : In (Z.of_nat d, x) (writes G (dist G v))) by (rewrite Ew; apply in_or_app; right; left; reflexivity).
      unfold AssembleSpec.writes in I. apply in_flat_map in I. destruct I as ([k g] & Ik & I). simpl in I.
      unfold AssembleSpec.data_of in I. rewrite (dist_lookup G v k g) in I by assumption.
      assert (Q : forall (l : list Z) (f : Z -> K) a b, In (a, b) (combine l (map f l)) -> b = f a).
      { clear. induction l; simpl; intros f a0 b; [tauto|]. intros [E|I]; [congruence|]. eauto. }
      apply Q in I. rewrite Nat2Z.id in I. subst x. symmetry. apply nth_error_nth'. lia.
  Qed.

  Lemma assemble_distribute_add G v n : NoDup (map fst G) -> numbers_0_to (map snd G) n ->
    length v = Z.to_nat n -> (forall k g, In (k, g) G -> NoDup g) ->
    exists D out, VectorDistributor Key K G v = Some D /\ VectorAssembler Key keqb K G Add D = Some out /\
      length out = length v /\
      forall d x, nth_error v d = Some x ->
        nth_error out d = Some (nmul (count_occ Z.eq_dec (concat (map snd G)) (Z.of_nat d)) x).
  Proof.
    intros N HN HL HND. exists (dist G v).
    destruct (vector_add G (dist G v) n) as (out & E & L & S); auto using dist_data_for.
    exists out. split; [eapply distribute_ok; eassumption|]. split; [assumption|]. split; [congruence|].
    intros d x Hx. assert (Hd : d < Z.to_nat n) by (rewrite <- HL; apply nth_error_Some; congruence).
    rewrite S by assumption. f_equal.
    apply (nth_error_nth v d r0) in Hx.
    transitivity (bsum (concat (map snd G)) (fun z => if (z =? Z.of_nat d)%Z then x else r0)).
    - rewrite bsum_concat, bsum_map. apply bsum_ext. intros [k g] I. simpl. unfold AssembleSpec.data_of.
      rewrite (dist_lookup G v k g) by assumption. clear - Hx. induction g as [|z g IH]; [reflexivity|].
      simpl. rewrite !bsum_cons, IH. simpl. f_equal. destruct (Z.eqb_spec z (Z.of_nat d)) as [->|]; [|reflexivity].
      rewrite Nat2Z.id. assumption.
    - clear. induction (concat (map snd G)) as [|z l IH]; [reflexivity|]. rewrite bsum_cons, IH. simpl.
      destruct (Z.eq_dec z (Z.of_nat d)) as [->|D].
      + rewrite Z.eqb_refl. reflexivity.
      + destruct (Z.eqb_spec z (Z.of_nat d)); [contradiction|]. ring.
  Qed.

  (** * matrices *)
  Lemma nth_error_nth_ne {A} (l : list A) i d : i < length l -> nth_error l i = Some (nth i l d).
  Proof. apply nth_error_nth'. Qed.

  Definition matrix_of (n0 n1 : nat) (out : list (list K)) : Prop :=
    length out = n0 /\ forall row, In row out -> length row = n1.

  Lemma in_update {A} (l : list A) i x y : In y (update l i x) -> y = x \/ In y l.
  Proof.
    revert i. induction l as [|a l IH]; simpl; intros i; [tauto|]. destruct i; simpl.
    - intuition.
    - intros [->|I]; [auto|]. apply IH in I. tauto.
  Qed.

  Lemma mrows_add n0 n1 g1 : NoDup g1 -> (forall i, In i g1 -> (0 <= i < Z.of_nat n1)%Z) ->
    forall g0 data out, matrix_of n0 n1 out -> length data = length g0 ->
    (forall row, In row data -> length row = length g1) ->
    (forall i, In i g0 -> (0 <= i < Z.of_nat n0)%Z) ->
    exists out', mrows K Add g0 g1 data out = Some out' /\ matrix_of n0 n1 out' /\
      forall r c, r < n0 -> nth c (nth r out' []) r0 =
        radd (nth c (nth r out []) r0) (mcontrib g0 g1 data (Z.of_nat r) (Z.of_nat c)).
  Proof.
    intros N R1. induction g0 as [|z g0 IH]; intros data out HM L HR R0.
    - exists out. split; [reflexivity|]. split; [assumption|]. intros. unfold mcontrib. simpl. rewrite bsum_nil. ring.
    - destruct data as [|dr data]; [discriminate|].
      assert (Rz := R0 z (or_introl eq_refl)). destruct HM as (HM0 & HM1).
      cbn [mrows]. unfold np_get. replace (0 <=? z)%Z with true by (symmetry; lia).
      rewrite (nth_error_nth' out []) by lia.
      assert (Lr : length (nth (Z.to_nat z) out []) = n1) by (apply HM1, nth_In; lia).
      unfold vstep. destruct (iadd_ok (nth (Z.to_nat z) out []) g1 dr) as (row' & E & Lo & S).
      { assumption. } { apply HR. left. reflexivity. } { rewrite Lr. assumption. }
      rewrite E. rewrite np_set_ok by lia.
      destruct (IH data (update out (Z.to_nat z) row')) as (out' & E' & M' & S').
      { split; [rewrite length_update; assumption|]. intros row I. apply in_update in I.
        destruct I as [->|I]; [congruence|auto]. }
      { simpl in L. lia. } { intros. apply HR. right. assumption. } { intros. apply R0. right. assumption. }
      exists out'. split; [assumption|]. split; [assumption|]. intros r c Hr. rewrite S' by assumption.
      unfold mcontrib. simpl combine. rewrite bsum_cons. simpl.
      destruct (Z.eqb_spec z (Z.of_nat r)) as [->|D].
      + rewrite Nat2Z.id in *. rewrite nth_update_eq by lia. rewrite S. unfold contrib. ring.
      + rewrite nth_update_neq by lia. ring.
  Qed.

  Lemma mloop_add n0 n1 G1 D : forall G0 out, matrix_of n0 n1 out ->
    (forall k g0, In (k, g0) G0 -> exists g1 B, lookup keqb k G1 = Some g1 /\ lookup keqb k D = Some B /\
      length B = length g0 /\ forall row, In row B -> length row = length g1) ->
    (forall k g0, In (k, g0) G0 -> (forall i, In i g0 -> (0 <= i < Z.of_nat n0)%Z) /\
        NoDup (data_of G1 k) /\ (forall i, In i (data_of G1 k) -> (0 <= i < Z.of_nat n1)%Z)) ->
    exists out', mloop Key keqb K Add G0 G1 D out = Some out' /\ matrix_of n0 n1 out' /\
      forall r c, r < n0 -> nth c (nth r out' []) r0 =
        radd (nth c (nth r out []) r0)
          (bsum G0 (fun kg => mcontrib (snd kg) (data_of G1 (fst kg)) (data_of D (fst kg)) (Z.of_nat r) (Z.of_nat c))).
  Proof.
    induction G0 as [|[k g0] G0 IH]; intros out HM HB HR.
    - exists out. split; [reflexivity|]. split; [assumption|]. intros. rewrite bsum_nil. ring.
    - simpl. destruct (HB k g0 (or_introl eq_refl)) as (g1 & B & E1 & ED & LB & RB).
      destruct (HR k g0 (or_introl eq_refl)) as (R0 & ND & R1).
      rewrite E1, ED. unfold AssembleSpec.data_of in ND, R1. rewrite E1 in ND, R1.
      destruct (mrows_add n0 n1 g1 ND R1 g0 B out HM LB RB R0) as (o1 & Eo & M1 & S1).
      rewrite Eo. destruct (IH o1 M1) as (o2 & E2 & M2 & S2).
      { intros. apply HB. right. assumption. } { intros. apply HR. right. assumption. }
      exists o2. split; [assumption|]. split; [assumption|]. intros r c Hr. rewrite S2, S1 by assumption.
      rewrite bsum_cons. simpl. unfold AssembleSpec.data_of at 3 4. rewrite E1, ED. ring.
  Qed.

  Lemma matrix_of_repeat n0 n1 : matrix_of n0 n1 (repeat (repeat r0 n1) n0).
  Proof.
    split; [apply repeat_length|]. intros row I. apply repeat_spec in I. subst. apply repeat_length.
  Qed.

  Lemma nth_repeat_repeat n0 n1 r c : nth c (nth r (repeat (repeat (r0 : K) n1) n0) []) r0 = r0.
  Proof.
    revert r. induction n0; destruct r; simpl; try (destruct c; reflexivity); [apply nth_repeat_0|apply IHn0].
  Qed.

  Lemma massemble_add G0 G1 D n0 n1 :
    numbers_0_to (map snd G0) n0 -> numbers_0_to (map (fun kg => data_of G1 (fst kg)) G0) n1 ->
    blocks_for G0 G1 D -> (forall k g0, In (k, g0) G0 -> NoDup (data_of G1 k)) ->
    exists out, massemble Key keqb K G0 G1 Add D = Some out /\
      matrix_of (Z.to_nat n0) (Z.to_nat n1) out /\
      forall r c, r < Z.to_nat n0 -> nth c (nth r out []) r0 =
        bsum G0 (fun kg => mcontrib (snd kg) (data_of G1 (fst kg)) (data_of D (fst kg)) (Z.of_nat r) (Z.of_nat c)).
  Proof.
    intros H0 H1 (L1 & LD & HB) ND. unfold massemble. rewrite (proj2 (checker_iff _ _) H0).
    assert (ES : all_some (map (fun kg => lookup keqb (fst kg) G1) G0) = Some (map (fun kg => data_of G1 (fst kg)) G0)).
    { apply all_some_map. clear - HB. induction G0 as [|[k g] G0 IH]; constructor.
      - simpl. unfold AssembleSpec.data_of. destruct (HB k g (or_introl eq_refl)) as (g1 & B & -> & _). reflexivity.
      - apply IH. intros. apply HB. right. assumption. }
    rewrite ES, (proj2 (checker_iff _ _) H1), L1, LD, Nat.eqb_refl. simpl.
    destruct H0 as (Hn0 & _ & C0), H1 as (Hn1 & _ & C1).
    destruct (mloop_add (Z.to_nat n0) (Z.to_nat n1) G1 D G0 _ (matrix_of_repeat _ _)) as (out & E & M & S).
    - assumption.
    - intros k g0 I. split; [|split].
      + intros i Hi. assert (In i (concat (map snd G0))).
        { apply in_concat. exists g0. split; [|assumption]. apply (in_map snd) in I. assumption. }
        apply C0 in H. lia.
      + eapply ND. eassumption.
      + intros i Hi. assert (In i (concat (map (fun kg => data_of G1 (fst kg)) G0))).
        { apply in_concat. exists (data_of G1 k). split; [|assumption].
          apply (in_map (fun kg => data_of G1 (fst kg))) in I. assumption. }
        apply C1 in H. lia.
    - exists out. split; [assumption|]. split; [assumption|]. intros r c Hr. rewrite S by assumption.
      rewrite nth_repeat_repeat. ring.
  Qed.

  (** * formats *)
  Variable is0 : K -> bool.
  Hypothesis is0_spec : forall x, is0 x = true -> x = r0.

  Lemma csr_row (row : list K) j :
    bsum (filter (fun p => negb (is0 (snd p))) (combine (seq 0 (length row)) row))
      (fun p => if fst p =? j then snd p else r0) = nth j row r0.
  Proof.
    rewrite bsum_filter.
    assert (G : forall s, bsum (combine (seq s (length row)) row)
       (fun p => if negb (is0 (snd p)) then (if fst p =? j then snd p else r0) else r0) =
       if s <=? j then nth (j - s) row r0 else r0).
    { induction row as [|x row IH]; intros s.
      - simpl. rewrite bsum_nil. destruct (s <=? j); [|reflexivity]. destruct (j - s); reflexivity.
      - cbn [length seq combine]. rewrite bsum_cons, IH. cbn [fst snd].
        assert (Ex : (if negb (is0 x) then if s =? j then x else r0 else r0) = if s =? j then x else r0).
        { destruct (is0 x) eqn:E; [|reflexivity]. simpl. rewrite (is0_spec x E). destruct (s =? j); reflexivity. }
        rewrite Ex. destruct (Nat.eqb_spec s j) as [E|D]; [subst s|].
        + rewrite Nat.leb_refl, Nat.sub_diag. replace (S j <=? j) with false by (symmetry; apply Nat.leb_gt; lia). cbn [nth]; ring.
        + destruct (Nat.leb_spec s j) as [H|H].
          * replace (S s <=? j) with true by (symmetry; apply Nat.leb_le; lia).
            replace (j - s) with (S (j - S s)) by lia. cbn [nth]; ring.
          * replace (S s <=? j) with false by (symmetry; apply Nat.leb_gt; lia). cbn [nth]; ring. }
    rewrite G. simpl. rewrite Nat.sub_0_r. reflexivity.
  Qed.

  Lemma csr_entry n (out : list (list K)) i j : entry (csr_of_dense K is0 n out) i j = nth j (nth i out []) r0.
  Proof.
    unfold csr_of_dense. simpl.
    rewrite <- csr_row.
    rewrite <- (map_nth (fun row : list K => filter (fun p => negb (is0 (snd p))) (combine (seq 0 (length row)) row)) out [] i).
    reflexivity.
  Qed.
  Lemma csc_entry n (out : list (list K)) i j : entry (transpose K (csr_of_dense K is0 n out)) i j = nth i (nth j out []) r0.
  Proof. apply (csr_entry n out j i). Qed.

  Lemma matrix_formats G0 G1 D n0 n1 f :
    numbers_0_to (map snd G0) n0 -> numbers_0_to (map (fun kg => data_of G1 (fst kg)) G0) n1 ->
    blocks_for G0 G1 D -> (forall k g0, In (k, g0) G0 -> NoDup (data_of G1 k)) ->
    f = FArray \/ f = FCsr ->
    exists M, MatrixAssembler Key keqb K is0 G0 G1 Add f D = Some M /\
      shape M = (Z.to_nat n0, Z.to_nat n1) /\
      forall r c, r < Z.to_nat n0 -> entry M r c =
        bsum G0 (fun kg => mcontrib (snd kg) (data_of G1 (fst kg)) (data_of D (fst kg)) (Z.of_nat r) (Z.of_nat c)).
  Proof.
    intros H0 H1 HB HN Hf. destruct (massemble_add _ _ _ _ _ H0 H1 HB HN) as (out & E & (M0 & M1) & S).
    assert (Lh : length (hd [] out) = Z.to_nat n1).
    { apply M1. destruct out; [destruct H0; simpl in M0; lia|left; reflexivity]. }
    unfold MatrixAssembler. rewrite E. destruct Hf as [->| ->]; simpl; eexists; (split; [reflexivity|]); split.
    - simpl. congruence.
    - intros. simpl. auto.
    - simpl. rewrite map_length. congruence.
    - intros. rewrite csr_entry. auto.
  Qed.

  Lemma matrix_csc G0 G1 D n0 n1 :
    numbers_0_to (map snd G0) n0 -> numbers_0_to (map (fun kg => data_of G1 (fst kg)) G0) n1 ->
    blocks_for G0 G1 D -> (forall k g0, In (k, g0) G0 -> NoDup (data_of G1 k)) ->
    exists M, MatrixAssembler Key keqb K is0 G0 G1 Add FCsc D = Some M /\
      shape M = (Z.to_nat n1, Z.to_nat n0) /\
      forall r c, r < Z.to_nat n0 -> entry M c r =
        bsum G0 (fun kg => mcontrib (snd kg) (data_of G1 (fst kg)) (data_of D (fst kg)) (Z.of_nat r) (Z.of_nat c)).
  Proof.
    intros H0 H1 HB HN. destruct (massemble_add _ _ _ _ _ H0 H1 HB HN) as (out & E & (M0 & M1) & S).
    assert (Lh : length (hd [] out) = Z.to_nat n1).
    { apply M1. destruct out; [destruct H0; simpl in M0; lia|left; reflexivity]. }
    unfold MatrixAssembler. rewrite E. eexists; (split; [reflexivity|]); split.
    - simpl. rewrite map_length. congruence.
    - intros. rewrite csc_entry. auto.
  Qed.
End Vec.

(** witness: one 1-key block; the csc output has entries at the transposed places *)
Lemma csc_transposed_witness :
  exists (G0 G1 : list (nat * list Z)) (D : list (nat * list (list ZR))) Ma Mc,
    MatrixAssembler nat Nat.eqb ZR (Z.eqb 0) G0 G1 Add FArray D = Some Ma /\
    MatrixAssembler nat Nat.eqb ZR (Z.eqb 0) G0 G1 Add FCsc D = Some Mc /\
    shape Ma = shape Mc /\ entry Ma 0 1 <> entry Mc 0 1.
Proof.
  exists [(0, [0%Z; 1%Z])], [(0, [0%Z; 1%Z])], [(0, [[1%Z; 2%Z]; [3%Z; 4%Z]])].
  eexists _, _. split; [vm_compute; reflexivity|]. split; [vm_compute; reflexivity|].
  split; [reflexivity|]. vm_compute. discriminate.
Qed.
