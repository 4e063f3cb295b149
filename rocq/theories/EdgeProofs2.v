(** Proofs about EdgeModel: the records of node and edge elements. *)
From Coq Require Import List Arith Bool Lia Sorted.
From Verif Require Import Prelude PreludeProofs SpaceModel SpaceSpec SpaceProofs MeshModel MeshMapModel MeshMapProofs2 TraceModel TraceSpec TraceProofs TraceProofs2 TraceProofs3 NumModel NumSpec NumProofs EdgeModel EdgeSpec EdgeProofs.
Import ListNotations.

Lemma list_choice {A B} (R : A -> B -> Prop) l : (forall x, In x l -> exists y, R x y) -> exists ys, Forall2 R l ys.
Proof.
  induction l as [|x l IH]; intros H; [exists []; constructor|]. destruct (H x ltac:(now left)) as [y Hy]. destruct IH as [ys Hys]; [intros z Hz; apply H; now right|]. exists (y :: ys). constructor; assumption.
Qed.
Lemma F2_nth {A B} (R : A -> B -> Prop) l m : Forall2 R l m -> forall i x y, nth_error l i = Some x -> nth_error m i = Some y -> R x y.
Proof. induction 1 as [|x y l m H _ IH]; intros [|i] a b Ha Hb; try discriminate; cbn in *; [congruence|eapply IH; eassumption]. Qed.
Lemma F2_intro {A B} (R : A -> B -> Prop) l : forall m, length l = length m -> (forall i x y, nth_error l i = Some x -> nth_error m i = Some y -> R x y) -> Forall2 R l m.
Proof.
  induction l as [|x l IH]; intros [|y m] L H; try discriminate; constructor; [apply (H 0); reflexivity|]. apply IH; [injection L as L; exact L|]. intros i. apply (H (S i)).
Qed.
Lemma NoDup_concat_part {A} (ll : list (list A)) l : NoDup (concat ll) -> In l ll -> NoDup l.
Proof.
  induction ll as [|x ll IH]; intros H []; cbn [concat] in H; [subst; apply NoDup_app_sw in H; apply NoDup_app_r in H; exact H|]. apply IH; [apply NoDup_app_r in H; exact H|assumption].
Qed.
Lemma in_bns sides (mm : emap) l b : NoDup (map fst mm) -> (In b (bns sides mm l) <-> exists q f, In q l /\ In f (nth (snd q) sides []) /\ entry mm (fst q) f (Bd b)).
Proof.
  intros ND. unfold bns. rewrite add_news_In. cbn [In]. rewrite in_flat_map. split.
  - intros [[]|(q & Hq & H)]. destruct (ndget mm (fst q)) as [row|] eqn:E; [|destruct H]. apply in_flat_map in H. destruct H as (f & Hf & H). destruct (nth_error row f) as [[x|x]|] eqn:Er; try destruct H as []; [|].
    + subst x. exists q, f. refine (conj Hq (conj Hf _)). exists row. split; [|exact Er]. apply (dget_In _ Nat.eqb_eq); assumption.
    + destruct H.
  - intros (q & f & Hq & Hf & row & Hr & Er). right. exists q. split; [exact Hq|]. apply (dget_In _ Nat.eqb_eq _ _ _ ND) in Hr. rewrite Hr. apply in_flat_map. exists f. split; [exact Hf|]. rewrite Er. now left.
Qed.
Lemma NoDup_bns sides mm l : NoDup (bns sides mm l). Proof. apply add_news_NoDup. constructor. Qed.
Lemma in_ask own others b : In b (ask own others) <-> In b own \/ exists o, In o others /\ In b o.
Proof.
  unfold ask. rewrite add_news_In, in_flat_map. split.
  - intros [H|(o & Ho & H)]; [auto|]. apply filter_In in H. right. exists o. tauto.
  - intros [H|(o & Ho & H)]; [auto|]. destruct (mem b own) eqn:E; [left; apply mem_spec; exact E|]. right. exists o. split; [exact Ho|]. apply filter_In. split; [exact H|]. rewrite E. reflexivity.
Qed.

Section Records.
  Variables (lim : nat) (sides : list (list nat)) (ts : list ctype) (ms : list emap) (gms : list (list (nat * list nat))) (N : nat).
  Hypothesis Hlim : 1 <= lim.
  Hypothesis Hkeys : map fst (concat ms) = seq 0 N.
  Hypothesis Hgm : map (map fst) gms = map (map fst) ms.
  Hypothesis Hlen : forall e v, In (e, v) (concat gms) -> length v = length (cells [1; 1; 1] ts).
  Hypothesis Hsides : forall i c ax (up : bool), nth_error (cells [1; 1; 1] ts) i = Some c -> (In (2 * ax + (if up then 1 else 0)) (nth i sides []) <-> on_side [1; 1; 1] (ax, up) c = true).
  Let gm := concat gms.
  Lemma gm_keys : map fst gm = seq 0 N. Proof. unfold gm. rewrite concat_map, Hgm, <- concat_map. exact Hkeys. Qed.
  Lemma ms_nodup mm : In mm ms -> NoDup (map fst mm).
  Proof. intros H. apply (NoDup_concat_part (map (map fst) ms)); [|apply in_map; exact H]. rewrite <- concat_map, Hkeys. apply seq_NoDup. Qed.
  Lemma gm_nodup : NoDup (map fst gm). Proof. rewrite gm_keys. apply seq_NoDup. Qed.
  Lemma key_in_core mm e : In mm ms -> In e (map fst mm) -> exists v, In (e, v) gm.
  Proof.
    intros H He. assert (X : In e (map fst gm)). { unfold gm. rewrite concat_map, Hgm. apply in_concat. exists (map fst mm). split; [apply in_map; exact H|exact He]. }
    apply in_map_iff in X. destruct X as ([e' v] & <- & X). exists v. exact X.
  Qed.
  Let full := located_all lim (all_places gm).
  Lemma full_some e i t : entry gm e i t -> exists l, ndget full t = Some l.
  Proof.
    intros H. destruct (located_some lim Hlim (all_places gm) t) as (l & E & _); [|exists l; exact E]. intros X. assert (Y : In (e, i) (occ t (all_places gm))) by (apply in_occ, in_all_places; exact H). rewrite X in Y. destruct Y.
  Qed.
  Let recd (t : nat) (l : list ploc) : Prop := l <> [] /\ (forall e i, In (e, i) l -> entry gm e i t) /\ (at_most_places gm lim t -> StronglySorted ploc_lt l /\ forall e i, In (e, i) l <-> entry gm e i t).
  Lemma full_rec e i t l : entry gm e i t -> ndget full t = Some l -> recd t l.
  Proof.
    intros H E. assert (Y : In (e, i) (occ t (all_places gm))) by (apply in_occ, in_all_places; exact H).
    destruct (located_some lim Hlim (all_places gm) t) as (l' & E' & NE & INC & EQ); [intros X; rewrite X in Y; destruct Y|]. assert (EE : l' = l) by (unfold full in E; congruence). subst l'.
    refine (conj NE (conj _ _)).
    - intros f j Hf. apply INC in Hf. apply in_occ, in_all_places in Hf. exact Hf.
    - intros AM. assert (SO := occ_sorted gm N t gm_keys). rewrite EQ.
      + split; [exact SO|]. intros f j. rewrite in_occ. apply in_all_places.
      + apply AM; [|intros f j Hf; apply in_occ, in_all_places in Hf; exact Hf]. clear - SO. induction SO as [|q o S1 IH F]; [constructor|]. constructor; [|exact IH]. intros X. rewrite Forall_forall in F. specialize (F q X). unfold ploc_lt in F. lia.
  Qed.
  Let corep (mm : emap) (d : list (nat * list ploc)) : Prop :=
    NoDup (map fst d) /\ (forall t l, ndget d t = Some l -> ndget full t = Some l) /\ (forall t, In t (map fst d) <-> exists e i, In e (map fst mm) /\ entry gm e i t).
  Lemma cores_ok mp : (forall e v, ndget mp e = Some v <-> In (e, v) gm) ->
    exists ds, Forall2 corep ms ds /\ all_some (map (fun mm => option_map (pair mm) (local_places full mp (map fst mm))) ms) = Some (combine ms ds).
  Proof.
    intros HM. destruct (list_choice (fun mm d => local_places full mp (map fst mm) = Some d /\ corep mm d) ms) as [ds H].
    - intros mm Hm. destruct (local_ok full mp gm HM) with (els := map fst mm) as (d & E & A & B & C).
      + intros e i t He X. destruct (full_some e i t He) as [l L]. congruence.
      + intros e He. apply key_in_core with (mm := mm); assumption.
      + exists d. unfold corep. auto.
    - exists ds. split.
      + clear - H. induction H as [|x y l m [_ H] _ IH]; constructor; assumption.
      + clear - H. induction H as [|x y l m [E H] _ IH]; [reflexivity|]. cbn [map]. unfold emap in *. rewrite E. cbn [option_map all_some combine]. unfold emap in *. rewrite IH. reflexivity.
  Qed.
  Let good (t : nat) (r : prec) : Prop := places r <> [] /\ (forall e i, In (e, i) (places r) -> entry gm e i t) /\ (at_most_places gm lim t -> right_record ts (concat ms) gm t r).
  Lemma nth_combine_seq {A} (l : list A) i x : nth_error (combine (seq 0 (length l)) l) i = Some x <-> fst x = i /\ nth_error l i = Some (snd x).
  Proof.
    rewrite <- (Nat.add_0_l i) at 2. generalize 0 at 1 2. revert i. induction l as [|y l IH]; intros i s; cbn [length seq combine].
    - destruct i; cbn; split; [discriminate| |discriminate|]; intros [_ X]; discriminate.
    - destruct i as [|i]; cbn [nth_error].
      + rewrite Nat.add_0_r. destruct x as [a b]. cbn [fst snd]. split; [intros [= <- <-]; auto|intros [-> [= ->]]; reflexivity].
      + rewrite IH. replace (S s + i) with (s + S i) by lia. reflexivity.
  Qed.
  Lemma in_combine_F2 {A B} (R : A -> B -> Prop) l m x y : Forall2 R l m -> In (x, y) (combine l m) -> R x y /\ In x l.
  Proof. induction 1 as [|a b l m H _ IH]; cbn; [intros []|]. intros [[= <- <-]|H']; [auto|]. destruct (IH H'). auto. Qed.
  Lemma F2_in_combine {A B} (R : A -> B -> Prop) l m x : Forall2 R l m -> In x l -> exists y, In (x, y) (combine l m).
  Proof. induction 1 as [|a b l m H _ IH]; cbn; [intros []|]. intros [<-|H']; [exists b; auto|]. destruct (IH H') as [y Hy]. exists y. auto. Qed.
  Lemma core_records ds i mm d : Forall2 corep ms ds -> nth_error ms i = Some mm -> nth_error ds i = Some d ->
    let es := core_locations sides (combine ms ds) i (mm, d) in
    map fst es = map fst d /\ forall t r, In (t, r) es -> good t r.
  Proof.
    intros F Hm Hd. assert (CP := F2_nth _ _ _ F _ _ _ Hm Hd). destruct CP as (C1 & C2 & C3). intros es. subst es. unfold core_locations. cbn [fst snd]. split; [rewrite map_map; apply map_ext; reflexivity|].
    intros t r Hr. apply in_map_iff in Hr. destruct Hr as ([t' l] & Er & Hl). cbn [fst snd] in Er. assert (t' = t) by congruence. subst t'. assert (Er' := f_equal snd Er). cbn [snd] in Er'. clear Er. subst r. unfold good. cbn [places].
    assert (Ed : ndget d t = Some l) by (apply (dget_In _ Nat.eqb_eq); assumption).
    assert (Kt : In t (map fst d)) by (apply in_map_iff; exists (t, l); auto).
    destruct (proj1 (C3 t) Kt) as (e0 & i0 & He0 & Ht0). destruct (full_rec _ _ _ _ Ht0 (C2 _ _ Ed)) as (R1 & R2 & R3).
    refine (conj R1 (conj R2 _)). intros AM. destruct (R3 AM) as [R4 R5]. unfold right_record. cbn [places shared onb].
    refine (conj R4 (conj R5 (conj _ (conj _ (conj _ _))))).
    - apply add_news_sorted; [constructor|]. cbn [app]. clear - R4. induction R4 as [|q o _ IH FA]; [constructor|]. cbn [map]. constructor; [exact IH|]. apply Forall_forall. intros x Hx. apply in_map_iff in Hx. destruct Hx as (q' & <- & Hq). rewrite Forall_forall in FA. specialize (FA q' Hq). unfold ploc_lt in FA. lia.
    - intros e. rewrite add_news_In, in_map_iff. split.
      + intros [[]|([e' j] & <- & Hq)]. exists j. apply R5. exact Hq.
      + intros [j Hj]. right. exists (e, j). split; [reflexivity|]. apply R5. exact Hj.
    - unfold ask. apply add_news_NoDup. apply NoDup_bns.
    - intros b. rewrite in_ask.
      transitivity (exists mm' d', In (mm', d') (combine ms ds) /\ ndget d' t = Some l /\ In b (bns sides mm' l)).
      + split.
        * intros [H|(o & Ho & H)].
          -- exists mm, d. refine (conj _ (conj Ed H)). clear - Hm Hd F. revert i Hm Hd. induction F as [|x y m1 m2 _ _ IH]; intros [|i] Hm Hd; try discriminate; cbn in *; [left; congruence|right; eapply IH; eassumption].
          -- apply in_flat_map in Ho. destruct Ho as ([j [mm' d']] & Hj & Ho). cbn [fst snd] in Ho. destruct (j =? i); [destruct Ho|]. destruct (ndget d' t) as [l'|] eqn:El; [|destruct Ho]. destruct Ho as [<-|[]].
             apply in_combine_r in Hj. exists mm', d'. destruct (in_combine_F2 _ _ _ _ _ F Hj) as [(D1 & D2 & D3) _]. assert (l' = l) by (apply D2 in El; apply C2 in Ed; congruence). subst l'. auto.
        * intros (mm' & d' & Hc & El & H). apply In_nth_error in Hc. destruct Hc as [j Hj]. destruct (Nat.eq_dec j i) as [->|NE].
          -- left. assert (X : nth_error (combine ms ds) i = Some (mm, d)). { clear - Hm Hd. revert ds i Hm Hd. induction ms as [|x m1 IH]; intros [|y ds] [|i] Hm Hd; try discriminate; cbn in *; [congruence|apply IH; assumption]. }
             assert (E : (mm', d') = (mm, d)) by congruence. assert (mm' = mm) by congruence. subst mm'. exact H.
          -- right. exists (bns sides mm' l). split; [|exact H]. apply in_flat_map. exists (j, (mm', d')). split; [apply nth_error_In with (n := j); apply nth_combine_seq; auto|]. cbn [fst snd]. destruct (Nat.eqb_spec j i); [contradiction|]. rewrite El. now left.
      + split.
        * intros (mm' & d' & Hc & El & H). destruct (in_combine_F2 _ _ _ _ _ F Hc) as [_ Hin]. apply in_bns in H; [|apply ms_nodup; exact Hin]. destruct H as ([e j] & f & Hq & Hf & row & Hrow & Hnth). cbn [fst snd] in *. apply R5 in Hq.
          assert (Hq' := Hq). destruct Hq' as (v & Hv & Hvj). assert (Lv := Hlen _ _ Hv). assert (j < length (cells [1; 1; 1] ts)) by (rewrite <- Lv; apply nth_error_Some; congruence). destruct (nth_error (cells [1; 1; 1] ts) j) as [c|] eqn:Ec; [|apply nth_error_None in Ec; lia].
          assert (Ef : f = 2 * (f / 2) + (if Nat.odd f then 1 else 0)). { rewrite (Nat.div_mod_eq f 2) at 1. rewrite <- Nat.bit0_mod, Nat.bit0_odd. destruct (Nat.odd f); reflexivity. }
          exists e, j, c, (f / 2), (Nat.odd f). refine (conj Hq (conj Ec (conj _ _))).
          -- apply (Hsides j c (f / 2) (Nat.odd f) Ec). rewrite <- Ef. exact Hf.
          -- rewrite <- Ef. exists row. split; [apply in_concat; exists mm'; auto|exact Hnth].
        * intros (e & j & c & ax & up & He & Ec & Hs & row & Hrow & Hnth). apply in_concat in Hrow. destruct Hrow as (mm' & Hin & Hrow). destruct (F2_in_combine _ _ _ _ F Hin) as [d' Hd']. destruct (in_combine_F2 _ _ _ _ _ F Hd') as [(D1 & D2 & D3) _].
          exists mm', d'. refine (conj Hd' (conj _ _)).
          -- assert (K : In t (map fst d')). { apply D3. exists e, j. split; [apply in_map_iff; exists (e, row); auto|exact He]. } apply (dget_keys _ Nat.eqb_eq) in K. destruct K as [l' El]. assert (l' = l) by (assert (Y := El); apply D2 in Y; apply C2 in Ed; congruence). congruence.
          -- apply in_bns; [apply ms_nodup; exact Hin|]. exists (e, j), (2 * ax + (if up then 1 else 0)). cbn [fst snd]. refine (conj _ (conj _ _)); [apply R5; exact He|apply (Hsides j c ax up Ec); exact Hs|exists row; auto].
  Qed.
  Theorem locations_ok : exists ess, locations lim sides ms gms = Some ess /\
    Forall2 (fun g es => NoDup (map fst es) /\ (forall t, In t (map fst es) <-> exists e i, entry g e i t) /\ forall t r, In (t, r) es -> good t r) gms ess.
  Proof.
    assert (LN : length (concat ms) = N) by (rewrite <- (map_length fst), Hkeys; apply seq_length).
    destruct (gathered_ok gms N gm_keys) as (mp & Em & HM). unfold locations. rewrite LN, Em. rewrite (visited_ok gm N mp gm_keys HM). fold full.
    destruct (cores_ok mp HM) as (ds & F & E). rewrite E. eexists. split; [reflexivity|].
    assert (LD : length ds = length ms) by (symmetry; eapply F2_length; exact F).
    assert (LG : length gms = length ms) by (rewrite <- (map_length (map fst)), Hgm; apply map_length).
    apply F2_intro; [rewrite map_length, combine_length, seq_length, combine_length; lia|]. intros i g es Hg He.
    rewrite nth_error_map in He. match type of He with option_map _ ?o = _ => destruct o as [[i' [mm d]]|] eqn:Ei end; [cbn [option_map] in He|discriminate He]. injection He as <-. cbn [fst snd]. apply nth_combine_seq in Ei. cbn [fst snd] in Ei. destruct Ei as [-> Ei].
    assert (Hm : nth_error ms i = Some mm /\ nth_error ds i = Some d). { clear - Ei. revert ds i Ei. induction ms as [|x m1 IH]; intros [|y ds] [|i] Ei; try discriminate; cbn in *; [split; congruence|apply IH; assumption]. }
    destruct Hm as [Hm Hd]. destruct (core_records ds i mm d F Hm Hd) as [K1 K2]. cbv zeta in K1. destruct (F2_nth _ _ _ F _ _ _ Hm Hd) as (C1 & C2 & C3). refine (conj _ (conj _ K2)).
    - rewrite K1. exact C1.
    - intros t. rewrite K1, C3. assert (KK : map fst g = map fst mm). { assert (X := f_equal (fun x => nth_error x i) Hgm). cbn beta in X. rewrite !nth_error_map in X. unfold emap in *. rewrite Hg, Hm in X. cbn in X. congruence. }
      assert (SUB : forall e v, In (e, v) g -> In (e, v) gm) by (intros e v H; unfold gm; apply in_concat; exists g; split; [eapply nth_error_In; exact Hg|exact H]).
      split.
      + intros (e & j & He & v & Hv & Hj). rewrite <- KK in He. apply in_map_iff in He. destruct He as ([e' v'] & <- & Hv'). cbn [fst] in *. exists e', j, v'. split; [exact Hv'|]. assert (v' = v); [|congruence].
        apply SUB in Hv'. apply (dget_In _ Nat.eqb_eq _ _ _ gm_nodup) in Hv, Hv'. congruence.
      + intros (e & j & v & Hv & Hj). exists e, j. split; [rewrite <- KK; apply in_map_iff; exists (e, v); auto|]. exists v. auto.
  Qed.
End Records.
Lemma edge_sides_ok i c ax (up : bool) : nth_error (cells [1; 1; 1] edges3) i = Some c -> (In (2 * ax + (if up then 1 else 0)) (nth i edge_sides []) <-> on_side [1; 1; 1] (ax, up) c = true).
Proof.
  intros H. assert (L : i < 12) by (change 12 with (length (cells [1; 1; 1] edges3)); apply nth_error_Some; congruence).
  destruct ax as [|[|[|ax]]].
  1,2,3: do 12 (destruct i as [|i]; [injection H as <-; destruct up; vm_compute; split; intros X; try reflexivity; try discriminate; try (repeat (destruct X as [X|X]; [discriminate|]); destruct X); auto|]); lia.
  split; intros X; exfalso.
  - assert (Y : forall x, In x (nth i edge_sides []) -> x < 6). { do 12 (destruct i as [|i]; [intros x Hx; cbn in Hx; lia|]); lia. } apply Y in X. destruct up; lia.
  - unfold on_side in X. cbn [fst snd] in X. replace (nth_error c (S (S (S ax)))) with (@None (bool * nat)) in X; [discriminate|]. symmetry. apply nth_error_None. assert (LC : length c = 3); [|lia].
    apply nth_error_In in H. revert H. vm_compute. intros H. repeat (destruct H as [<-|H]; [reflexivity|]). destruct H.
Qed.
Lemma node_sides_ok i c ax (up : bool) : nth_error (cells [1; 1; 1] nodes3) i = Some c -> (In (2 * ax + (if up then 1 else 0)) (nth i node_sides []) <-> on_side [1; 1; 1] (ax, up) c = true).
Proof.
  intros H. assert (L : i < 8) by (change 8 with (length (cells [1; 1; 1] nodes3)); apply nth_error_Some; congruence).
  destruct ax as [|[|[|ax]]].
  1,2,3: do 8 (destruct i as [|i]; [injection H as <-; destruct up; vm_compute; split; intros X; try reflexivity; try discriminate; try (repeat (destruct X as [X|X]; [discriminate|]); destruct X); auto|]); lia.
  split; intros X; exfalso.
  - assert (Y : forall x, In x (nth i node_sides []) -> x < 6). { do 8 (destruct i as [|i]; [intros x Hx; cbn in Hx; lia|]); lia. } apply Y in X. destruct up; lia.
  - unfold on_side in X. cbn [fst snd] in X. replace (nth_error c (S (S (S ax)))) with (@None (bool * nat)) in X; [discriminate|]. symmetry. apply nth_error_None. assert (LC : length c = 3); [|lia].
    apply nth_error_In in H. revert H. vm_compute. intros H. repeat (destruct H as [<-|H]; [reflexivity|]). destruct H.
Qed.
