(** Global vectors, numbers and dofs of sides. *)
From Coq Require Import List Arith ZArith Lia Bool.
From Verif Require Import Prelude RingSum AssembleModel AssembleSpec AssembleProofs TewModel TewSpec TewProofs TewProofs2 LtcModel LtcSpec LtcProofs LtcProofs2.
Import ListNotations.

Lemma numbers_at m e d : nth_error (lt_numbers m e) d = if d <? l_basis m then Some (e * l_basis m + d) else None.
Proof.
  unfold lt_numbers. destruct (Nat.ltb_spec d (l_basis m)) as [H|H].
  - rewrite nth_error_nth' with (d := 0) by (rewrite seq_length; exact H). rewrite seq_nth by exact H. reflexivity.
  - apply nth_error_None. rewrite seq_length. exact H.
Qed.
Theorem numbers_once m e e' d d' i : nth_error (lt_numbers m e) d = Some i -> nth_error (lt_numbers m e') d' = Some i -> e = e' /\ d = d'.
Proof.
  rewrite !numbers_at. destruct (Nat.ltb_spec d (l_basis m)) as [H|H]; [|discriminate]. destruct (Nat.ltb_spec d' (l_basis m)) as [H'|H']; [|discriminate].
  intros E E'. injection E as <-. injection E' as E'. assert (e' = e) by nia. subst e'. lia.
Qed.
Theorem numbers_cover m n i : (exists e d, e < n /\ nth_error (lt_numbers m e) d = Some i) <-> i < n * l_basis m.
Proof.
  split.
  - intros (e & d & H & E). rewrite numbers_at in E. destruct (Nat.ltb_spec d (l_basis m)) as [G|G]; [|discriminate]. injection E as <-. nia.
  - intros H. assert (B : l_basis m <> 0) by (intros B; rewrite B in H; lia). exists (i / l_basis m), (i mod l_basis m). split; [apply Nat.div_lt_upper_bound; lia|].
    rewrite numbers_at. assert (M := Nat.mod_upper_bound i _ B). destruct (Nat.ltb_spec (i mod l_basis m) (l_basis m)) as [G|G]; [|lia]. f_equal. rewrite (Nat.div_mod i _ B) at 3. lia.
Qed.

Section Globe.
  Context {K : CRing} (m : ltform) (F : lt_fits m).
  Lemma gather_vec (V : list K) l : (forall i, In i l -> i < length V) -> exists v, all_some (map (nth_error V) l) = Some v /\ length v = length l /\ forall d i, nth_error l d = Some i -> nth_error v d = nth_error V i.
  Proof.
    intros H. destruct (all_some_forall2 (nth_error V) l) as (v & E & F2).
    { intros i I. destruct (nth_error V i) as [x|] eqn:X; [eauto|]. apply nth_error_None in X. specialize (H i I). lia. }
    exists v. split; [exact E|]. clear - F2. induction F2 as [|i x l v X F2 (L & IH)]; [split; [reflexivity|intros [|d]; discriminate]|]. cbn [length]. split; [congruence|].
    intros [|d] j; cbn [nth_error]; [intros Q; injection Q as <-; congruence|apply IH].
  Qed.
  Definition elements_of (V : list K) (L : dict (list K)) : Prop :=
    forall e v, In (e, v) L -> length v = l_basis m /\ forall d i, nth_error (lt_numbers m e) d = Some i -> nth_error v d = nth_error V i.
  Theorem set_globe_ok (V : list K) s : (forall e d i, In e (l_els m) -> nth_error (lt_numbers m e) d = Some i -> i < length V) ->
    exists L, set_globe_full m V s = LDone (mkls (Some L) None (Some true)) /\ map fst L = l_els m /\ elements_of V L.
  Proof.
    intros H. unfold set_globe_full.
    destruct (all_some_forall2 (fun e => option_map (pair e) (all_some (map (nth_error V) (lt_numbers m e)))) (l_els m)) as (L & E & F2).
    { intros e I. destruct (gather_vec V (lt_numbers m e)) as (v & Ev & _); [|rewrite Ev; eexists; reflexivity]. intros i J. apply In_nth_error in J as (d & J). apply (H e d i I J). }
    rewrite E. assert (KE := keys_of _ _ _ F2).
    assert (EL : elements_of V L).
    { intros e v J. destruct (Forall2_in_r _ _ _ _ F2 J) as (e' & I & Q). destruct (gather_vec V (lt_numbers m e')) as (v' & Ev & Lv & P).
      { intros i J'. apply In_nth_error in J' as (d & J'). apply (H e' d i I J'). }
      rewrite Ev in Q. cbn [option_map] in Q. injection Q as <- <-. split; [rewrite Lv; unfold lt_numbers; apply seq_length|exact P]. }
    exists L. split; [|split; assumption]. unfold set_local_lt. replace (forallb _ L) with true.
    - assert (LL : length L = length (l_els m)) by (rewrite <- KE, map_length; reflexivity). rewrite LL, Nat.eqb_refl. reflexivity.
    - symmetry. apply forallb_forall. intros [e v] J. apply Nat.eqb_eq. apply (EL e v J).
  Qed.
  Theorem globe_ok (L : dict (list K)) s : ls_local s = Some L -> NoDup (map fst L) -> map fst L = l_els m -> lt_shapes m L ->
    exists G, lt_globe m s = Some G /\ NoDup (map fst G) /\
    forall i x, In (i, x) G <-> exists e v d, In (e, v) L /\ nth_error (lt_numbers m e) d = Some i /\ nth_error v d = Some x.
  Proof.
    intros EL N KL SL. unfold lt_globe. rewrite EL.
    destruct (all_some_forall2 (fun e => match at_key e L with Some v => if length v =? l_basis m then Some (combine (lt_numbers m e) v) else None | None => None end) (l_els m)) as (R & E & F2).
    { intros e I. rewrite <- KL in I. apply in_keys in I as (v & J). rewrite (in_at_key L e v N J), (SL e v J), Nat.eqb_refl. eauto. }
    rewrite E. exists (concat R). split; [reflexivity|].
    assert (F3 : Forall2 (fun e r => exists v, In (e, v) L /\ r = combine (lt_numbers m e) v /\ length v = l_basis m) (l_els m) R).
    { clear - F2. induction F2 as [|e r els R Q F2 IH]; constructor; [|exact IH]. destruct (at_key e L) as [v|] eqn:A; [|discriminate Q]. destruct (Nat.eqb_spec (length v) (l_basis m)); [|discriminate Q]. injection Q as <-.
      exists v. split; [apply at_key_in, A|auto]. }
    assert (CI : forall (e : nat) (v : list K) i x, length v = l_basis m -> (In (i, x) (combine (lt_numbers m e) v) <-> exists d, nth_error (lt_numbers m e) d = Some i /\ nth_error v d = Some x)).
    { intros e v i x Lv. assert (LL : length (lt_numbers m e) = length v) by (unfold lt_numbers; rewrite seq_length; auto). revert LL. generalize (lt_numbers m e) as l. clear.
      induction v as [|y v IH]; intros [|j l] LL; try discriminate LL; cbn [combine In]; [split; [intros []|intros ([|d] & Q & _); discriminate Q]|].
      rewrite (IH l) by (cbn in LL; lia). split.
      - intros [Q|(d & Q)]; [injection Q as <- <-; exists 0; auto|exists (S d); exact Q].
      - intros ([|d] & Q & Q'); [cbn in Q, Q'; left; congruence|right; exists d; auto]. }
    split.
    - assert (KR : map fst (concat R) = flat_map (lt_numbers m) (l_els m)).
      { clear - F3. induction F3 as [|e r els R (v & _ & -> & Lv) F3 IH]; [reflexivity|]. cbn [concat flat_map]. rewrite map_app, IH. f_equal.
        assert (LL : length (lt_numbers m e) = length v) by (unfold lt_numbers; rewrite seq_length; auto). revert LL. generalize (lt_numbers m e) as l. clear.
        induction v as [|y v IH]; intros [|j l] LL; try discriminate LL; [reflexivity|]. cbn [combine map fst]. f_equal. apply IH. cbn in LL. lia. }
      rewrite KR. assert (NE := proj1 F). clear - NE. induction NE as [|e els X NE IH]; [constructor|]. cbn [flat_map]. apply NoDup_app'; [unfold lt_numbers; apply seq_NoDup|exact IH|].
      intros i I J. apply in_flat_map in J as (e' & I' & J). apply In_nth_error in I as (d & I). apply In_nth_error in J as (d' & J). destruct (numbers_once m e e' d d' i I J) as (-> & _). contradiction.
    - intros i x. rewrite in_concat. split.
      + intros (r & Ir & Ix). destruct (Forall2_in_r _ _ _ _ F3 Ir) as (e & Ie & v & Iv & -> & Lv). apply CI in Ix as (d & A & B); [|exact Lv]. exists e, v, d. auto.
      + intros (e & v & d & Iv & A & B). assert (Ie : In e (l_els m)) by (rewrite <- KL; apply (in_map fst _ _ Iv)).
        assert (exists r, In r R /\ exists v, In (e, v) L /\ r = combine (lt_numbers m e) v /\ length v = l_basis m) as (r & Ir & v' & Iv' & -> & Lv).
        { clear - F3 Ie. induction F3 as [|e' r els R Q F3 IH]; [destruct Ie|]. destruct Ie as [->|Ie]; [exists r; split; [left; reflexivity|exact Q]|]. destruct (IH Ie) as (r' & Ir & Q'). exists r'. split; [right; exact Ir|exact Q']. }
        assert (v' = v) by (exact (keys_same L e v' v N Iv' Iv)). subst v'. exists (combine (lt_numbers m e) v). split; [exact Ir|]. apply CI; [exact Lv|]. exists d. auto.
  Qed.
End Globe.

Section Numbering.
  Variables (m : ltform) (F : lt_fits m) (O : opposite_alike m).
  Lemma ends_ok a n : nth_error (l_onside m) a = Some n -> side_ends m a = Some (sum (firstn a (l_onside m)), sum (firstn a (l_onside m)) + n).
  Proof.
    assert (F' := F); destruct F' as (_ & L & _). assert (O0 := O 0). assert (O1 := O 1). assert (O2 := O 2). cbn in O0, O1, O2. unfold side_ends.
    destruct (l_onside m) as [|n0 [|n1 [|n2 [|n3 [|n4 [|n5 [|]]]]]]]; try discriminate L. cbn [nth_error] in *. injection O0 as <-. injection O1 as <-. injection O2 as <-.
    destruct a as [|[|[|[|[|[|a]]]]]]; cbn [nth_error]; intros Q; try (injection Q as <-); try (destruct a; discriminate Q); cbn [firstn sum]; unfold sum; cbn [fold_right]; f_equal; f_equal; lia.
  Qed.
  Lemma side_of a : a < 6 -> exists n, nth_error (l_onside m) a = Some n.
  Proof. intros H. assert (F' := F); destruct F' as (_ & L & _). destruct (nth_error (l_onside m) a) as [n|] eqn:E; [eauto|]. apply nth_error_None in E. lia. Qed.
  Lemma ends_none a : 6 <= a -> side_ends m a = None.
  Proof. intros H. unfold side_ends. do 6 (destruct a as [|a]; [lia|]). destruct (nth_error (l_onside m) 0), (nth_error (l_onside m) 2), (nth_error (l_onside m) 4); reflexivity. Qed.
  Lemma sum_side a n : nth_error (l_onside m) a = Some n -> sum (firstn a (l_onside m)) + n <= sum (l_onside m).
  Proof.
    generalize (l_onside m). clear. intros l. revert a. induction l as [|x l IH]; intros [|a] H; try discriminate H; unfold sum in *; cbn [firstn fold_right nth_error] in *; [injection H as <-; lia|].
    specialize (IH a H). lia.
  Qed.
  Lemma gathered_side G a : l_dofs m = Gathered G -> a < 6 -> exists g, at_key a G = Some g /\ In (a, g) G /\ nth_error (l_onside m) a = Some (length g) /\ (forall z, In z g -> (0 <= z < Z.of_nat (l_basis m))%Z) /\ NoDup (map fst G).
  Proof.
    intros D H. assert (F' := F); destruct F' as (_ & _ & D'). rewrite D in D'. destruct D' as (K1 & K2 & Nu). assert (NG : NoDup (map fst G)) by (rewrite K1; apply seq_NoDup).
    destruct (proj1 (in_keys G a)) as (g & I); [rewrite K1; apply in_seq; lia|]. exists g. split; [apply in_at_key; assumption|]. split; [exact I|]. split; [|split; [|exact NG]].
    - rewrite <- K2. apply In_nth_error in I as (k & I). assert (k = a).
      { assert (Q : nth_error (map fst G) k = Some a) by (rewrite nth_error_map, I; reflexivity). rewrite K1 in Q. assert (k < 6) by (rewrite <- (seq_length 6 0); apply nth_error_Some; congruence).
        rewrite nth_error_nth' with (d := 0) in Q by (rewrite seq_length; lia). rewrite seq_nth in Q by lia. injection Q as Q. lia. }
      subst k. rewrite nth_error_map, I. reflexivity.
    - intros z J. apply Nu. apply in_concat. exists g. split; [apply (in_map snd _ _ I)|exact J].
  Qed.

  Definition only_ends (c : lcache) : Prop := forall a r, at_key a c = Some r -> exists n, nth_error (l_onside m) a = Some n /\ r = Ends (sum (firstn a (l_onside m))) (sum (firstn a (l_onside m)) + n).
  Definition only_ranges (c : lcache) : Prop := forall a r, at_key a c = Some r -> exists n, nth_error (l_onside m) a = Some n /\ r = Arange (seq (sum (firstn a (l_onside m))) n).
  Lemma at_key_cons {A} a b (x : A) c : at_key a ((b, x) :: c) = if Nat.eqb a b then Some x else at_key a c.
  Proof. reflexivity. Qed.
  Lemma only_ends_step e a c : only_ends c -> only_ends (snd (dofs_on_side m e a c)).
  Proof.
    intros H. unfold dofs_on_side. destruct (l_dofs m) as [|G]; [|exact H]. destruct (at_key a c) as [r|] eqn:A; [exact H|].
    destruct (le_lt_dec 6 a) as [Q|Q]; [rewrite (ends_none a Q); exact H|]. destruct (side_of a Q) as (n & Hn). rewrite (ends_ok a n Hn). cbn [snd].
    intros b r. rewrite at_key_cons. destruct (Nat.eqb_spec b a) as [->|]; [|apply H]. intros E. injection E as <-. exists n. auto.
  Qed.
  Lemma only_ranges_step a c : only_ranges c -> only_ranges (snd (local_dofs_on_side m a c)).
  Proof.
    intros H. unfold local_dofs_on_side. destruct (l_dofs m) as [|G]; [|exact H]. destruct (at_key a c) as [r|] eqn:A; [exact H|].
    destruct (le_lt_dec 6 a) as [Q|Q]; [rewrite (ends_none a Q); exact H|]. destruct (side_of a Q) as (n & Hn). rewrite (ends_ok a n Hn). cbn [snd].
    intros b r. rewrite at_key_cons. destruct (Nat.eqb_spec b a) as [->|]; [|apply H]. intros E. injection E as <-. exists n. split; [exact Hn|]. f_equal. f_equal. lia.
  Qed.
  Lemma numbers_at_side e a n : l_dofs m = Hybrid -> nth_error (l_onside m) a = Some n -> side_numbers m e a (firstn (sum (firstn a (l_onside m)) + n - sum (firstn a (l_onside m))) (skipn (sum (firstn a (l_onside m))) (lt_numbers m e))).
  Proof.
    intros D Hn. assert (F' := F); destruct F' as (_ & _ & D'). rewrite D in D'. assert (S := sum_side a n Hn). rewrite D' in S.
    set (s := sum (firstn a (l_onside m))) in *. replace (s + n - s) with n by lia. split.
    - rewrite Hn. f_equal. rewrite firstn_length, skipn_length. unfold lt_numbers. rewrite seq_length. lia.
    - intros p d E. unfold lt_entry in E. rewrite D in E. destruct E as (n' & Hn' & P & ->). rewrite Hn in Hn'. injection Hn' as <-. fold s.
      rewrite nth_firstn by exact P. rewrite nth_skipn. rewrite numbers_at. destruct (Nat.ltb_spec (s + p) (l_basis m)); [reflexivity|lia].
  Qed.
  Lemma dofs_step e a c : only_ends c -> a < 6 -> exists l, fst (dofs_on_side m e a c) = Some l /\ side_numbers m e a l.
  Proof.
    intros H A. unfold dofs_on_side. destruct (l_dofs m) as [|G] eqn:D.
    - destruct (side_of a A) as (n & Hn). destruct (at_key a c) as [r|] eqn:C.
      + destruct (H a r C) as (n' & Hn' & ->). cbn [unpack fst]. eexists. split; [reflexivity|]. apply numbers_at_side; assumption.
      + rewrite (ends_ok a n Hn). cbn [unpack fst]. eexists. split; [reflexivity|]. apply numbers_at_side; assumption.
    - destruct (gathered_side G a D A) as (g & Q & I & Lg & R & NG). rewrite Q. cbn [fst].
      destruct (all_some_forall2 (fun z => nth_error (lt_numbers m e) (Z.to_nat z)) g) as (l & E & F2).
      { intros z J. rewrite numbers_at. specialize (R z J). destruct (Nat.ltb_spec (Z.to_nat z) (l_basis m)); [eauto|lia]. }
      exists l. split; [exact E|]. assert (P : length l = length g /\ forall p z, nth_error g p = Some z -> nth_error l p = nth_error (lt_numbers m e) (Z.to_nat z)).
      { clear - F2. induction F2 as [|z x g l X F2 (L & IH)]; [split; [reflexivity|intros [|p]; discriminate]|]. cbn [length]. split; [congruence|]. intros [|p] z'; cbn [nth_error]; [intros Q; injection Q as <-; congruence|apply IH]. }
      destruct P as (P1 & P2). split; [rewrite P1; exact Lg|]. intros p d En. unfold lt_entry in En. rewrite D in En. destruct En as (g' & I' & N'). rewrite (keys_same G a g' g NG I' I) in N'.
      rewrite (P2 p _ N'), numbers_at. assert (B := R _ (nth_error_In _ _ N')). rewrite Nat2Z.id. destruct (Nat.ltb_spec d (l_basis m)); [reflexivity|lia].
  Qed.
  Lemma places_step a c : only_ranges c -> a < 6 -> exists l, fst (local_dofs_on_side m a c) = Some (Arange l) /\ side_places m a l.
  Proof.
    intros H A. unfold local_dofs_on_side. destruct (l_dofs m) as [|G] eqn:D.
    - destruct (side_of a A) as (n & Hn). assert (P : side_places m a (seq (sum (firstn a (l_onside m))) n)).
      { split; [rewrite seq_length; exact Hn|]. intros p d E. unfold lt_entry in E. rewrite D in E. destruct E as (n' & Hn' & P & ->). rewrite Hn in Hn'. injection Hn' as <-.
        rewrite nth_error_nth' with (d := 0) by (rewrite seq_length; exact P). rewrite seq_nth by exact P. reflexivity. }
      destruct (at_key a c) as [r|] eqn:C.
      + destruct (H a r C) as (n' & Hn' & ->). rewrite Hn in Hn'. injection Hn' as <-. cbn [fst]. eexists. split; [reflexivity|exact P].
      + rewrite (ends_ok a n Hn). cbn [fst]. set (s := sum _) in *. replace (s + n - s) with n by lia. eexists. split; [reflexivity|exact P].
    - destruct (gathered_side G a D A) as (g & Q & I & Lg & R & NG). rewrite Q. cbn [option_map fst]. eexists. split; [reflexivity|]. split; [rewrite map_length; exact Lg|].
      intros p d En. unfold lt_entry in En. rewrite D in En. destruct En as (g' & I' & N'). rewrite (keys_same G a g' g NG I' I) in N'. rewrite nth_error_map, N'. cbn [option_map]. rewrite Nat2Z.id. reflexivity.
  Qed.
  Theorem only_numbers_ok es e a : a < 6 -> exists l, fst (dofs_on_side m e a (after_numbers m es)) = Some l /\ side_numbers m e a l.
  Proof.
    apply dofs_step. unfold after_numbers. assert (I : only_ends []) by (intros b r Q; discriminate Q). revert I. generalize ([] : lcache). induction es as [|[e' a'] es IH]; intros c I; [exact I|].
    cbn [fold_left fst snd]. apply IH, only_ends_step, I.
  Qed.
  Theorem only_places_ok sides a : a < 6 -> exists l, fst (local_dofs_on_side m a (after_places m sides)) = Some (Arange l) /\ side_places m a l.
  Proof.
    apply places_step. unfold after_places. assert (I : only_ranges []) by (intros b r Q; discriminate Q). revert I. generalize ([] : lcache). induction sides as [|a' sides IH]; intros c I; [exact I|].
    cbn [fold_left]. apply IH, only_ranges_step, I.
  Qed.
  Lemma entry_at a (l : list nat) p : nth_error (l_onside m) a = Some (length l) -> a < 6 -> p < length l -> exists d, lt_entry m a p d.
  Proof.
    intros H A P. unfold lt_entry. destruct (l_dofs m) as [|G] eqn:D; [exists (sum (firstn a (l_onside m)) + p), (length l); auto|].
    destruct (gathered_side G a D A) as (g & Q & I & Lg & R & NG). assert (LL : length g = length l) by congruence.
    destruct (nth_error g p) as [z|] eqn:Z; [|apply nth_error_None in Z; lia]. assert (B := R z (nth_error_In _ _ Z)). exists (Z.to_nat z), g. split; [exact I|]. rewrite Z2Nat.id by lia. exact Z.
  Qed.
  Lemma entry_inside a p d n : nth_error (l_onside m) a = Some n -> lt_entry m a p d -> p < n.
  Proof.
    intros H E. assert (A : a < 6). { assert (F' := F); destruct F' as (_ & L & _). rewrite <- L. apply nth_error_Some. congruence. }
    unfold lt_entry in E. destruct (l_dofs m) as [|G] eqn:D; [destruct E as (n' & Hn & P & _); congruence|].
    destruct E as (g & I & N'). destruct (gathered_side G a D A) as (g' & Q & I' & Lg & R & NG). rewrite (keys_same G a g g' NG I I') in N'.
    assert (length g' = n) by congruence. subst n. apply nth_error_Some. congruence.
  Qed.
  Lemma boundary_step es : forall c, only_ends c -> (forall e a, In (e, a) es -> a < 6) -> exists ds, fst (boundary_dofs_lt m es c) = Some ds /\
    forall i, In i ds <-> exists e a p d, In (e, a) es /\ lt_entry m a p d /\ i = e * l_basis m + d.
  Proof.
    induction es as [|[e a] es IH]; intros c H B.
    - exists []. split; [reflexivity|]. intros i. split; [intros []|]. intros (? & ? & ? & ? & [] & _).
    - cbn [boundary_dofs_lt]. assert (A : a < 6) by (apply (B e a); left; reflexivity). destruct (dofs_step e a c H A) as (l & E & P1 & P2). assert (S := only_ends_step e a c H).
      destruct (dofs_on_side m e a c) as [o c']. cbn [fst snd] in *. subst o. destruct (IH c' S) as (ds & E & Q); [intros e' a' I; apply (B e' a'); right; exact I|].
      destruct (boundary_dofs_lt m es c') as [o c'']. cbn [fst] in *. subst o. exists (l ++ ds). split; [reflexivity|]. intros i. rewrite in_app_iff, Q. split.
      + intros [I|(e' & a' & p & d & I & R)].
        * apply In_nth_error in I as (p & I). assert (P : p < length l) by (apply nth_error_Some; congruence). destruct (entry_at a l p P1 A P) as (d & En). exists e, a, p, d.
          split; [left; reflexivity|]. split; [exact En|]. rewrite (P2 p d En) in I. congruence.
        * exists e', a', p, d. split; [right; exact I|exact R].
      + intros (e' & a' & p & d & [I|I] & En & ->).
        * injection I as <- <-. left. apply (nth_error_In _ p). apply (P2 p d En).
        * right. exists e', a', p, d. auto.
  Qed.
End Numbering.
Theorem boundary_ok m : lt_fits m -> opposite_alike m -> forall es, (forall e a, In (e, a) es -> a < 6) -> exists ds, fst (boundary_dofs_lt m es []) = Some ds /\
  forall i, In i ds <-> exists e a p d, In (e, a) es /\ lt_entry m a p d /\ i = e * l_basis m + d.
Proof. intros F O es H. apply (boundary_step m F O es []); [intros b r Q; discriminate Q|exact H]. Qed.
