(** Proofs for C11: the sequent chaining. *)
From Coq Require Import List Arith ZArith Lia Bool Permutation.
From Verif Require Import Prelude PreludeProofs AssembleModel AssembleProofs GatherModel GatherSpec GatherProofs.
Import ListNotations.
Local Open Scope nat_scope.
Local Arguments sum : simpl never.

(** * cache_write *)
Lemma cache_write_other fv : forall c j cur j' d, j' <> j \/ ~ In d fv -> cache_write c j fv cur j' d = c j' d.
Proof.
  induction fv as [|x fv IH]; simpl; intros c j cur j' d H; [reflexivity|].
  rewrite IH by tauto. destruct (Nat.eqb_spec j' j), (Nat.eqb_spec d x); simpl; try reflexivity.
  subst. tauto.
Qed.

Lemma cache_write_at fv : forall c j cur i d, NoDup fv -> nth_error fv i = Some d ->
  cache_write c j fv cur j d = cur + i.
Proof.
  induction fv as [|x fv IH]; simpl; intros c j cur i d N E; [destruct i; discriminate|].
  inversion N; subst. destruct i; simpl in E.
  - injection E as ->. rewrite cache_write_other by tauto. rewrite !Nat.eqb_refl. simpl. lia.
  - rewrite (IH _ _ _ i) by assumption. lia.
Qed.

(** same writes on two caches *)
Lemma cache_write_diff fv : forall c1 c2 j cur j' d, In d fv -> cache_write c1 j fv cur j d = cache_write c2 j fv cur j d /\
  (j' <> j -> cache_write c1 j fv cur j' d = c1 j' d).
Proof.
  intros c1 c2 j cur j' d I. split; [|intros; apply cache_write_other; auto].
  revert c1 c2 cur I. induction fv as [|x fv IH]; simpl; intros c1 c2 cur I; [tauto|].
  destruct (in_dec Nat.eq_dec d fv) as [D|D]; [apply IH; assumption|].
  destruct I as [->|I]; [|contradiction]. rewrite !cache_write_other by auto. rewrite !Nat.eqb_refl. reflexivity.
Qed.

Definition st_eq_shift (base : nat -> nat -> nat) (a b : seqst) : Prop :=
  s_cur a = s_cur b /\ (forall j, s_fil a j = s_fil b j) /\
  (forall j d, s_cache a j d = base j d + s_cache b j d) /\
  (forall j d, s_fil b j <= d -> base j d = 0).

Lemma seq_step_shift base a b jv : st_eq_shift base a b -> st_eq_shift base (seq_step a jv) (seq_step b jv).
Proof.
  intros (C & F & H & Z). destruct jv as [j v]. unfold seq_step.
  assert (EF : filter (fun d => s_fil a j <=? d) v = filter (fun d => s_fil b j <=? d) v)
    by (rewrite F; reflexivity).
  rewrite EF. set (fv := filter _ v). split; [simpl; congruence|]. split; [|split]; simpl.
  - intros j'. destruct (j' =? j); congruence.
  - intros j' d. rewrite C. destruct (Nat.eq_dec j' j) as [->|D].
    + destruct (in_dec Nat.eq_dec d fv) as [I|I].
      * destruct (cache_write_diff fv (s_cache a) (s_cache b) j (s_cur b) j d I) as (E & _). rewrite E.
        unfold fv in I. apply filter_In in I. destruct I as (_ & L). apply Nat.leb_le in L. rewrite (Z j d L). reflexivity.
      * rewrite !cache_write_other by auto. apply H.
    + rewrite !cache_write_other by auto. apply H.
  - intros j' d L. apply Z. destruct (Nat.eqb_spec j' j) as [->|D]; lia.
Qed.

Lemma seq_run_shift base items : forall a b, st_eq_shift base a b ->
  st_eq_shift base (fold_left seq_step items a) (fold_left seq_step items b).
Proof. induction items; simpl; intros; [assumption|]. apply IHitems, seq_step_shift. assumption. Qed.

(** writes only at dofs >= filter, and filters only grow *)
Lemma seq_step_mono st jv : forall j, s_fil st j <= s_fil (seq_step st jv) j.
Proof. destruct jv as [j v]. intros j'. simpl. destruct (Nat.eqb_spec j' j) as [->|]; lia. Qed.

(** caches of a relay, summed, are the cache of one run through all the items, provided the
    cache is zero from the filters on at every stage (invariant below) *)
Definition zero_above (st : seqst) : Prop := forall j d, s_fil st j <= d -> s_cache st j d = 0.

Definition st_ext (a b : seqst) : Prop :=
  s_cur a = s_cur b /\ (forall j, s_fil a j = s_fil b j) /\ (forall j d, s_cache a j d = s_cache b j d).

Lemma seq_step_ext a b jv : st_ext a b -> st_ext (seq_step a jv) (seq_step b jv).
Proof.
  intros (C & F & H). destruct jv as [j v]. unfold seq_step, st_ext; simpl.
  assert (EF : filter (fun d => s_fil a j <=? d) v = filter (fun d => s_fil b j <=? d) v)
    by (rewrite F; reflexivity).
  rewrite EF. split; [congruence|]. split.
  - intros j'. destruct (j' =? j); congruence.
  - intros j' d. rewrite C. set (fv := filter _ v).
    destruct (Nat.eq_dec j' j) as [->|D].
    + destruct (in_dec Nat.eq_dec d fv) as [I|I].
      * apply cache_write_diff; [exact 0|assumption].
      * rewrite !cache_write_other by auto. apply H.
    + rewrite !cache_write_other by auto. apply H.
Qed.

Lemma seq_run_ext items : forall a b, st_ext a b -> st_ext (fold_left seq_step items a) (fold_left seq_step items b).
Proof. induction items; simpl; intros; [assumption|]. apply IHitems, seq_step_ext. assumption. Qed.

Lemma relay_merged : forall cores base cur fil,
  (forall pre post, cores = pre ++ post ->
     zero_above (fold_left seq_step (concat pre) (mkSeq cur fil base))) ->
  forall j d, s_cache (fold_left seq_step (concat cores) (mkSeq cur fil base)) j d =
    base j d + merged (relay cores cur fil) j d.
Proof.
  induction cores as [|items cores IH]; intros base cur fil Z j d; simpl.
  - unfold merged, sum. simpl. lia.
  - rewrite fold_left_app. set (st := fold_left seq_step items (mkSeq cur fil base)).
    set (st0 := fold_left seq_step items (mkSeq cur fil (fun _ _ => 0))).
    assert (SH : st_eq_shift base st st0).
    { apply seq_run_shift. split; [reflexivity|]. split; [reflexivity|]. split; [simpl; intros; lia|].
      simpl. apply (Z [] (items :: cores)). reflexivity. }
    destruct SH as (C & F & H & _).
    assert (EX : st_ext st (mkSeq (s_cur st0) (s_fil st0) (s_cache st))).
    { split; [exact C|]. split; [exact F|]. reflexivity. }
    destruct (seq_run_ext (concat cores) _ _ EX) as (_ & _ & ->).
    rewrite IH.
    + rewrite H. unfold merged. simpl. rewrite sum_cons. lia.
    + intros pre post E. destruct (seq_run_ext (concat pre) _ _ EX) as (_ & EF & EC).
      intros j' d' L. rewrite <- EC. rewrite <- EF in L.
      assert (ZZ := Z (items :: pre) post). simpl in ZZ. rewrite fold_left_app in ZZ.
      rewrite E in ZZ. specialize (ZZ eq_refl). apply ZZ. assumption.
Qed.

(** * the invariant of one run *)
Definition sel (j : nat) (P : list (nat * GV)) : list GV := map snd (filter (fun p => fst p =? j) P).

Lemma sel_app j P Q : sel j (P ++ Q) = sel j P ++ sel j Q.
Proof. unfold sel. rewrite filter_app, map_app. reflexivity. Qed.

Record seq_inv (P : list (nat * GV)) (st : seqst) : Prop := {
  si_seen : forall j d, d < s_fil st j <-> In d (concat (sel j P));
  si_zero : zero_above st;
  si_lt : forall j d, d < s_fil st j -> s_cache st j d < s_cur st;
  si_inj : forall j d j' d', d < s_fil st j -> d' < s_fil st j' -> s_cache st j d = s_cache st j' d' ->
           j = j' /\ d = d';
  si_sur : forall n, n < s_cur st -> exists j d, d < s_fil st j /\ s_cache st j d = n }.

Lemma initial_segment k1 k2 : (forall d, d < k1 <-> d < k2) -> k1 = k2.
Proof. intros H. assert (A := H k1). assert (B := H k2). lia. Qed.

Lemma seq_inv_step P st j v k2 : seq_inv P st ->
  (forall d, In d (concat (sel j (P ++ [(j, v)]))) <-> d < k2) ->
  NoDup (filter (fun d => s_fil st j <=? d) v) ->
  seq_inv (P ++ [(j, v)]) (seq_step st (j, v)).
Proof.
  intros I HK N. set (fv := filter (fun d => s_fil st j <=? d) v) in *.
  set (k := s_fil st j) in *.
  assert (ES : sel j (P ++ [(j, v)]) = sel j P ++ [v]).
  { rewrite sel_app. unfold sel at 2. simpl. rewrite Nat.eqb_refl. reflexivity. }
  assert (IFV : forall d, In d fv <-> k <= d < k2).
  { intros d. unfold fv. rewrite filter_In, Nat.leb_le, <- HK, ES, concat_app, in_app_iff. simpl. rewrite app_nil_r.
    rewrite <- (si_seen _ _ I). fold k. split; [intros (A & B); split; [assumption|auto]|].
    intros (A & [B|B]); [lia|auto]. }
  assert (HKK : k <= k2).
  { destruct (le_lt_dec k k2) as [L|L]; [assumption|]. exfalso.
    assert (X : k2 < k) by assumption. apply (si_seen _ _ I) in X.
    assert (Y : In k2 (concat (sel j (P ++ [(j, v)])))) by (rewrite ES, concat_app; apply in_or_app; auto).
    apply HK in Y. lia. }
  assert (LFV : length fv = k2 - k).
  { rewrite <- (seq_length (k2 - k) k). apply Permutation_length, NoDup_Permutation; [assumption|apply seq_NoDup|].
    intros d. rewrite IFV, in_seq. lia. }
  assert (EST : seq_step st (j, v) = mkSeq (s_cur st + length fv)
       (fun j' => if j' =? j then k + length fv else s_fil st j') (cache_write (s_cache st) j fv (s_cur st))) by reflexivity.
  assert (FIL : forall j', s_fil (seq_step st (j, v)) j' = if j' =? j then k2 else s_fil st j').
  { intros j'. rewrite EST. simpl. destruct (j' =? j); [lia|reflexivity]. }
  assert (OLD : forall j' d, d < s_fil st j' -> s_cache (seq_step st (j, v)) j' d = s_cache st j' d).
  { intros j' d L. rewrite EST. simpl. apply cache_write_other. destruct (Nat.eq_dec j' j) as [->|D]; [|auto].
    right. rewrite IFV. fold k in L. lia. }
  assert (NEW : forall d, k <= d < k2 -> exists i, i < length fv /\ nth_error fv i = Some d /\
                s_cache (seq_step st (j, v)) j d = s_cur st + i).
  { intros d L. apply IFV in L. apply In_nth_error in L. destruct L as (i & E). exists i.
    split; [apply nth_error_Some; congruence|]. split; [assumption|]. rewrite EST. simpl.
    apply cache_write_at; assumption. }
  assert (CASE : forall j' d, d < s_fil (seq_step st (j, v)) j' -> d < s_fil st j' \/ (j' = j /\ k <= d < k2)).
  { intros j' d L. rewrite FIL in L. destruct (Nat.eqb_spec j' j) as [->|D]; [|auto]. fold k. lia. }
  assert (CUR : s_cur (seq_step st (j, v)) = s_cur st + length fv) by (rewrite EST; reflexivity).
  constructor.
  - intros j' d. rewrite FIL. destruct (Nat.eqb_spec j' j) as [->|D]; [symmetry; apply HK|].
    rewrite (si_seen _ _ I), sel_app. unfold sel at 3. simpl.
    replace (j =? j') with false by (symmetry; apply Nat.eqb_neq; auto). simpl. rewrite app_nil_r. reflexivity.
  - intros j' d L. rewrite FIL in L. rewrite EST. simpl.
    destruct (Nat.eqb_spec j' j) as [->|D].
    + rewrite cache_write_other by (right; rewrite IFV; lia). apply (si_zero _ _ I). fold k. lia.
    + rewrite cache_write_other by auto. apply (si_zero _ _ I). assumption.
  - intros j' d L. rewrite CUR. destruct (CASE j' d L) as [O|(-> & O)].
    + rewrite OLD by assumption. apply (si_lt _ _ I) in O. lia.
    + destruct (NEW d O) as (i & Hi & _ & ->). lia.
  - intros j1 d1 j2 d2 L1 L2 E.
    destruct (CASE j1 d1 L1) as [O1|(-> & O1)], (CASE j2 d2 L2) as [O2|(-> & O2)].
    + rewrite !OLD in E by assumption. apply (si_inj _ _ I); assumption.
    + rewrite OLD in E by assumption. destruct (NEW d2 O2) as (i & Hi & _ & E2). apply (si_lt _ _ I) in O1. lia.
    + rewrite (OLD j2) in E by assumption. destruct (NEW d1 O1) as (i & Hi & _ & E2). apply (si_lt _ _ I) in O2. lia.
    + destruct (NEW d1 O1) as (i1 & Hi1 & N1 & E1). destruct (NEW d2 O2) as (i2 & Hi2 & N2 & E2).
      assert (i1 = i2) by lia. subst. split; [reflexivity|congruence].
  - intros n L. rewrite CUR in L. destruct (le_lt_dec (s_cur st) n) as [G|G].
    + destruct (nth_error fv (n - s_cur st)) as [d|] eqn:E; [|apply nth_error_None in E; lia].
      assert (O : k <= d < k2) by (apply IFV; eapply nth_error_In; eassumption).
      exists j, d. split; [rewrite FIL, Nat.eqb_refl; lia|].
      rewrite EST. simpl. rewrite (cache_write_at fv _ _ _ (n - s_cur st)) by assumption. lia.
    + destruct (si_sur _ _ I n G) as (j' & d & L' & E). exists j', d.
      split; [|rewrite OLD; assumption]. assert (M := seq_step_mono st (j, v) j'). lia.
Qed.

Lemma seq_inv_init : seq_inv [] (mkSeq 0 (fun _ => 0) (fun _ _ => 0)).
Proof. constructor; simpl; try (intros; lia). intros j d _. reflexivity. Qed.

Lemma seq_inv_run items :
  (forall j, In j (map fst items) -> first_come_numbering (sel j items)) ->
  forall P Q, items = P ++ Q -> seq_inv P (fold_left seq_step P (mkSeq 0 (fun _ => 0) (fun _ _ => 0))).
Proof.
  intros H P. induction P as [|[j v] P IH] using rev_ind; intros Q E; [apply seq_inv_init|].
  rewrite fold_left_app. simpl. rewrite <- app_assoc in E. simpl in E.
  specialize (IH ((j, v) :: Q) E).
  assert (FC : first_come_numbering (sel j items)).
  { apply H. rewrite E, map_app. apply in_or_app. right. left. reflexivity. }
  destruct FC as (F1 & F2).
  assert (EI : sel j items = sel j P ++ v :: sel j Q).
  { rewrite E, sel_app. f_equal. unfold sel. simpl. rewrite Nat.eqb_refl. reflexivity. }
  destruct (F1 (sel j P ++ [v]) (sel j Q)) as (k2 & HK).
  { rewrite EI, <- app_assoc. reflexivity. }
  apply (seq_inv_step P _ j v k2 IH).
  - intros d. rewrite sel_app. unfold sel at 2. simpl. rewrite Nat.eqb_refl. simpl. apply HK.
  - specialize (F2 _ _ _ EI). erewrite filter_ext; [exact F2|]. intros d. simpl.
    assert (S := si_seen _ _ IH j d).
    destruct (existsb (Nat.eqb d) (concat (sel j P))) eqn:X; simpl.
    + apply existsb_exists in X. destruct X as (y & Iy & Ey). apply Nat.eqb_eq in Ey. subst y.
      apply S in Iy. apply Nat.leb_gt. assumption.
    + apply Nat.leb_le. apply Nat.nlt_ge. intros L. apply S in L. apply not_true_iff_false in X. apply X.
      apply existsb_exists. exists d. split; [assumption|apply Nat.eqb_refl].
Qed.

Section Seq.
  Variables (SIZE : nat) (gms : list GMat) (ns : list nat).
  Hypothesis WN : well_numbered SIZE gms ns.
  Hypothesis FC : forall g, In g gms -> first_come_numbering (visited SIZE (nth 0 gms []) g).

  Definition core_items (r : nat) : list (nat * GV) :=
    flat_map (fun e => enumerate (local_vectors gms r e)) (elements (nth 0 gms []) r).

  Lemma visits_ok r : visits gms r = Some (core_items r).
  Proof.
    unfold visits. destruct (gms_cons _ _ _ WN) as (g & rest & E). 
    assert (E0 : nth 0 gms [] = g) by (rewrite E; reflexivity).
    rewrite E at 1.
    assert (EA : all_some (map (fun e => all_some (map (fun jg => option_map (pair (fst jg)) (gv_of (snd jg) r e)) (enumerate gms)))
        (elements g r)) = Some (map (fun e => enumerate (local_vectors gms r e)) (elements g r))).
    { apply all_some_map. assert (HE : forall e, In e (elements g r) -> In e (elements (nth 0 gms []) r)) by (rewrite E0; auto).
      induction (elements g r) as [|e l IH]; constructor.
      - unfold local_vectors. rewrite enumerate_map. apply all_some_map.
        assert (He : In e (elements (nth 0 gms []) r)) by (apply HE; left; reflexivity).
        assert (H : forall jg, In jg (enumerate gms) -> In (snd jg) gms) by apply in_enumerate_gms.
        clear IH HE. induction (enumerate gms) as [|jg m IHm]; constructor.
        + rewrite (gv_some _ _ _ WN) by (auto; apply H; left; reflexivity). reflexivity.
        + apply IHm. intros. apply H. right. assumption.
      - apply IH. intros. apply HE. right. assumption. }
    rewrite EA. simpl. unfold core_items. rewrite E0, flat_map_concat_map. reflexivity.
  Qed.

  Definition all_items : list (nat * GV) := concat (map core_items (seq 0 SIZE)).

  Lemma sel_enumerate_gen (vs : list GV) j : forall s, 
    map snd (filter (fun p => fst p =? j) (combine (seq s (length vs)) vs)) =
    if s <=? j then match nth_error vs (j - s) with Some v => [v] | None => [] end else [].
  Proof.
    induction vs as [|v vs IH]; intros s; simpl.
    - destruct (s <=? j); [|reflexivity]. destruct (j - s); reflexivity.
    - destruct (Nat.eqb_spec s j) as [->|D].
      + simpl. rewrite IH. rewrite Nat.leb_refl, Nat.sub_diag. simpl.
        replace (match j with 0 => false | S m' => j <=? m' end) with (S j <=? j) by reflexivity.
        replace (S j <=? j) with false by (symmetry; apply Nat.leb_gt; lia). reflexivity.
      + rewrite IH. destruct (Nat.leb_spec s j) as [L|L].
        * replace (match j with 0 => false | S m' => s <=? m' end) with (S s <=? j) by reflexivity.
          replace (S s <=? j) with true by (symmetry; apply Nat.leb_le; lia).
          replace (j - s) with (S (j - S s)) by lia. reflexivity.
        * replace (match j with 0 => false | S m' => s <=? m' end) with (S s <=? j) by reflexivity.
          replace (S s <=? j) with false by (symmetry; apply Nat.leb_gt; lia). reflexivity.
  Qed.

  Lemma sel_enumerate (vs : list GV) j : sel j (enumerate vs) = match nth_error vs j with Some v => [v] | None => [] end.
  Proof. unfold sel, enumerate. rewrite sel_enumerate_gen. simpl. rewrite Nat.sub_0_r. reflexivity. Qed.

  Lemma sel_concat j L : sel j (concat L) = concat (map (sel j) L).
  Proof. induction L; simpl; [reflexivity|]. rewrite sel_app, IHL. reflexivity. Qed.

  Lemma sel_core j g r : nth_error gms j = Some g -> 
    sel j (core_items r) = map (fun e => match gv_of g r e with Some v => v | None => [] end) (elements (nth 0 gms []) r).
  Proof.
    intros E. unfold core_items. rewrite flat_map_concat_map, sel_concat, map_map.
    induction (elements (nth 0 gms []) r) as [|e l IH]; simpl; [reflexivity|]. rewrite IH, sel_enumerate.
    unfold local_vectors. rewrite nth_error_map, E. reflexivity.
  Qed.

  Lemma sel_all j g : nth_error gms j = Some g -> sel j all_items = visited SIZE (nth 0 gms []) g.
  Proof.
    intros E. unfold all_items, visited. rewrite sel_concat, map_map, flat_map_concat_map. f_equal. apply map_ext.
    intros r. apply sel_core. assumption.
  Qed.

  Lemma items_fst j v : In (j, v) all_items -> exists g, nth_error gms j = Some g.
  Proof.
    intros I. unfold all_items in I. apply in_concat in I. destruct I as (l & I & K). apply in_map_iff in I.
    destruct I as (r & <- & _). unfold core_items in K. apply in_flat_map in K. destruct K as (e & _ & K).
    apply in_enumerate in K. unfold local_vectors in K. rewrite nth_error_map in K.
    destruct (nth_error gms j); [eauto|discriminate].
  Qed.

  Definition final := fold_left seq_step all_items (mkSeq 0 (fun _ => 0) (fun _ _ => 0)).

  Lemma items_fc j : In j (map fst all_items) -> first_come_numbering (sel j all_items).
  Proof.
    intros I. apply in_map_iff in I. destruct I as ([j' v] & <- & I). apply items_fst in I. destruct I as (g & E).
    simpl. rewrite (sel_all _ g E). apply FC. eapply nth_error_In. eassumption.
  Qed.

  Lemma final_inv : seq_inv all_items final.
  Proof. apply (seq_inv_run all_items items_fc all_items []). symmetry. apply app_nil_r. Qed.

  Lemma merged_final j d : merged (relay (map core_items (seq 0 SIZE)) 0 (fun _ => 0)) j d = s_cache final j d.
  Proof.
    unfold final, all_items. symmetry.
    rewrite (relay_merged (map core_items (seq 0 SIZE)) (fun _ _ => 0) 0 (fun _ => 0)); [reflexivity|].
    intros pre post E. apply (si_zero (concat pre)).
    apply (seq_inv_run all_items items_fc (concat pre) (concat post)). unfold all_items. rewrite E. apply concat_app.
  Qed.

  Lemma visited_in j g d : nth_error gms j = Some g -> In d (concat (sel j all_items)) <-> occurs g d.
  Proof.
    intros E. rewrite (sel_all _ _ E). unfold visited. assert (Hg : In g gms) by (eapply nth_error_In; eassumption).
    rewrite in_concat. split.
    - intros (v & I & K). apply in_flat_map in I. destruct I as (r & Ir & I). apply in_map_iff in I.
      destruct I as (e & Ev & Ie). exists r, e, v. split; [|assumption].
      destruct (gv_of g r e) as [w|]; [congruence|]. subst. destruct K.
    - intros (r & e & v & Ev & K). exists v. split; [|assumption].
      destruct (core_of _ _ _ WN g r e v Hg Ev) as (Hr & He & _). apply in_flat_map. exists r.
      split; [apply in_seq; lia|]. apply in_map_iff. exists e. rewrite Ev. auto.
  Qed.

  Lemma fil_final j : j < length ns -> s_fil final j = nth j ns 0.
  Proof.
    intros Hj. assert (Lj : j < length gms) by (rewrite <- (wn_len _ _ _ WN); assumption).
    destruct (nth_error gms j) as [g|] eqn:Eg; [|apply nth_error_None in Eg; lia].
    destruct (nth_ns _ _ _ WN j g Eg) as (_ & En). destruct (wn_dofs _ _ _ WN j g _ Eg En) as (_ & HD).
    apply initial_segment. intros d. rewrite (si_seen _ _ final_inv), <- HD. apply visited_in. assumption.
  Qed.

  Lemma fil_final_out j d : d < s_fil final j -> j < length ns.
  Proof.
    intros L. apply (si_seen _ _ final_inv) in L. apply in_concat in L. destruct L as (v & I & _).
    unfold sel in I. apply in_map_iff in I. destruct I as ([j' v'] & _ & I). apply filter_In in I.
    destruct I as (I & E). simpl in E. apply Nat.eqb_eq in E. subst j'. apply items_fst in I. destruct I as (g & E).
    apply (nth_ns _ _ _ WN j g). assumption.
  Qed.

  Lemma seq_ok r e : 2 <= length gms -> In e (elements (nth 0 gms []) r) ->
    CGM_getitem SIZE gms Sequent r e = Some (map (fun p => s_cache final (fst p) (snd p)) (dof_pairs (local_vectors gms r e))).
  Proof.
    intros L2 He. unfold CGM_getitem. rewrite (chain_check_ok _ _ _ WN).
    assert (EV : all_some (map (visits gms) (seq 0 SIZE)) = Some (map core_items (seq 0 SIZE))).
    { apply all_some_map. induction (seq 0 SIZE); constructor; [apply visits_ok|assumption]. }
    rewrite EV. destruct gms as [|g1 [|g2 rest]] eqn:EG; simpl in L2; try lia. rewrite <- EG in *.
    rewrite (chained_ok _ _ _ WN) by assumption. f_equal. apply map_ext_in. intros [j d] I. simpl.
    unfold distributed. destruct (pair_bound _ _ _ WN r e j d He I) as (g & Eg & _ & _ & Iv).
    replace (existsb (Nat.eqb d) (local_dofs (nth j gms []) r)) with true.
    - apply merged_final.
    - symmetry. apply existsb_exists. exists d. split; [|apply Nat.eqb_refl].
      rewrite (nth_error_nth _ _ _ Eg). unfold local_dofs. apply in_concat. exists (vec g r e).
      split; [|assumption]. apply in_map_iff. exists (e, vec g r e). split; [reflexivity|].
      apply lookup_In. apply (gv_some _ _ _ WN); [eapply nth_error_In; eassumption|assumption].
  Qed.
End Seq.

Lemma elem_of_vec SIZE gms ns m r e v : well_numbered SIZE gms ns ->
  CGM_getitem SIZE gms m r e = Some v -> r < SIZE /\ In e (elements (nth 0 gms []) r).
Proof. intros WN. apply (getitem_elements _ _ _ WN). Qed.

Lemma cur_final SIZE gms ns (WN : well_numbered SIZE gms ns)
  (FC : forall g, In g gms -> first_come_numbering (visited SIZE (nth 0 gms []) g)) :
  s_cur (final SIZE gms) = sum ns.
Proof.
  (* count: the pairs (j,d) are in bijection with [0,cur) and with [0, sum ns) *)
  set (PL := flat_map (fun j => map (pair j) (seq 0 (nth j ns 0))) (seq 0 (length ns))).
  assert (IPL : forall j d, In (j, d) PL <-> j < length ns /\ d < nth j ns 0).
  { intros j d. unfold PL. rewrite in_flat_map. split.
    - intros (j' & I & K). apply in_map_iff in K. destruct K as (d' & E & K). injection E as <- <-.
      apply in_seq in I, K. lia.
    - intros (A & B). exists j. split; [apply in_seq; lia|]. apply in_map, in_seq. lia. }
  assert (NPL : NoDup PL).
  { unfold PL. generalize (seq_NoDup (length ns) 0). generalize (seq 0 (length ns)). intros l N. induction N as [|j l Hj N IH]; simpl; [constructor|].
    assert (NA : forall (l1 l2 : list (nat*nat)), NoDup l1 -> NoDup l2 -> (forall x, In x l1 -> ~ In x l2) -> NoDup (l1 ++ l2)).
    { clear. induction l1; simpl; intros; [assumption|]. inversion H; subst. constructor.
      - rewrite in_app_iff. intros [A|A]; [contradiction|]. apply (H1 a); auto.
      - apply IHl1; auto. }
    apply NA; [apply FinFun.Injective_map_NoDup; [intros x y E; congruence|apply seq_NoDup]|assumption|].
    intros [a b] I K. apply in_map_iff in I. destruct I as (d & E & _). injection E as <- <-.
    apply in_flat_map in K. destruct K as (j' & I' & K). apply in_map_iff in K. destruct K as (d' & E & _).
    injection E as -> ->. contradiction. }
  assert (LPL : length PL = sum ns).
  { unfold PL. clear. induction ns as [|n l IH] using rev_ind; [reflexivity|].
    rewrite app_length, seq_app, flat_map_app, app_length, sum_app. simpl.
    f_equal.
    - rewrite <- IH. rewrite !flat_map_concat_map. f_equal. f_equal. apply map_ext_in. intros j I. apply in_seq in I.
      rewrite app_nth1 by lia. reflexivity.
    - rewrite app_nil_r, map_length, seq_length, app_nth2 by lia. rewrite Nat.sub_diag. unfold sum. simpl. lia. }
  assert (FI := final_inv SIZE gms FC).
  assert (FL := fil_final SIZE gms ns WN FC). assert (FO := fil_final_out SIZE gms ns WN FC).
  rewrite <- LPL. rewrite <- (map_length (fun p => s_cache (final SIZE gms) (fst p) (snd p)) PL).
  rewrite <- (seq_length (s_cur (final SIZE gms)) 0) at 1.
  apply Permutation_length, NoDup_Permutation; [apply seq_NoDup| |].
  - clear LPL. assert (SUB : forall p, In p PL -> snd p < s_fil (final SIZE gms) (fst p)).
    { intros [j d] I. apply IPL in I. simpl. rewrite FL; tauto. }
    clear IPL. induction NPL as [|p l Hp N IH]; simpl; [constructor|]. constructor.
    + intros I. apply in_map_iff in I. destruct I as (q & E & I).
      assert (p = q); [|subst; contradiction]. destruct p as [j d], q as [j' d']. simpl in E.
      destruct (si_inj _ _ FI j' d' j d) as (-> & ->); [apply (SUB (j', d')); right; assumption|apply (SUB (j, d)); left; reflexivity|assumption|reflexivity].
    + apply IH. intros. apply SUB. right. assumption.
  - intros n. rewrite in_seq. split.
    + intros H. destruct (si_sur _ _ FI n) as (j & d & L & E); [lia|]. apply in_map_iff. exists (j, d).
      split; [assumption|]. apply IPL. assert (J := FO j d L). split; [assumption|]. rewrite <- FL; assumption.
    + intros I. apply in_map_iff in I. destruct I as ([j d] & <- & I). apply IPL in I. simpl.
      assert (s_cache (final SIZE gms) j d < s_cur (final SIZE gms)); [|lia]. apply (si_lt _ _ FI). rewrite FL; tauto.
Qed.

Lemma sequent_renumbering SIZE gms ns : well_numbered SIZE gms ns ->
  (forall g, In g gms -> first_come_numbering (visited SIZE (nth 0 gms []) g)) ->
  (forall r e, r < SIZE -> In e (elements (nth 0 gms []) r) ->
     exists v w, CGM_getitem SIZE gms Silly r e = Some v /\ CGM_getitem SIZE gms Sequent r e = Some w /\
       length v = length w) /\
  (forall r1 e1 v1 w1 i1 a1 b1 r2 e2 v2 w2 i2 a2 b2,
     CGM_getitem SIZE gms Silly r1 e1 = Some v1 -> CGM_getitem SIZE gms Sequent r1 e1 = Some w1 ->
     CGM_getitem SIZE gms Silly r2 e2 = Some v2 -> CGM_getitem SIZE gms Sequent r2 e2 = Some w2 ->
     nth_error v1 i1 = Some a1 -> nth_error w1 i1 = Some b1 ->
     nth_error v2 i2 = Some a2 -> nth_error w2 i2 = Some b2 ->
     (a1 = a2 <-> b1 = b2)) /\
  (forall m, (exists r e w, CGM_getitem SIZE gms Sequent r e = Some w /\ In m w) <-> m < sum ns).
Proof.
  intros WN FC.
  destruct (le_lt_dec 2 (length gms)) as [L2|L2].
  2:{ (* one matrix: sequent is silly *)
    assert (E : forall r e, CGM_getitem SIZE gms Sequent r e = CGM_getitem SIZE gms Silly r e).
    { intros r e. destruct (gms_cons _ _ _ WN) as (g & rest & E). rewrite E in *. destruct rest; [|simpl in L2; lia].
      unfold CGM_getitem. reflexivity. }
    split; [|split].
    - intros r e Hr He. rewrite E. rewrite (silly_value _ _ _ WN r e Hr He). eauto.
    - intros. rewrite E in *. assert (v1 = w1) by congruence. assert (v2 = w2) by congruence. subst.
      assert (a1 = b1) by congruence. assert (a2 = b2) by congruence. subst. reflexivity.
    - intros m. rewrite <- (silly_cover _ _ _ WN m).
      split; intros (r & e & w & A & B); exists r, e, w; (split; [congruence|assumption]). }
  assert (FI := final_inv SIZE gms FC).
  assert (FL := fil_final SIZE gms ns WN FC). assert (FO := fil_final_out SIZE gms ns WN FC).
  assert (CU := cur_final SIZE gms ns WN FC).
  split; [|split].
  - intros r e Hr He. rewrite (CGM_silly _ _ _ WN), (silly_ok _ _ _ WN) by assumption.
    rewrite (seq_ok SIZE gms ns WN FC) by assumption. do 2 eexists. split; [reflexivity|]. split; [reflexivity|].
    rewrite !map_length. reflexivity.
  - intros r1 e1 v1 w1 i1 a1 b1 r2 e2 v2 w2 i2 a2 b2 V1 W1 V2 W2 A1 B1 A2 B2.
    destruct (elem_of_vec _ _ _ _ _ _ _ WN V1) as (Hr1 & He1).
    destruct (elem_of_vec _ _ _ _ _ _ _ WN V2) as (Hr2 & He2).
    rewrite (CGM_silly _ _ _ WN), (silly_ok _ _ _ WN) in V1, V2 by assumption.
    rewrite (seq_ok SIZE gms ns WN FC) in W1, W2 by assumption.
    injection V1 as <-. injection V2 as <-. injection W1 as <-. injection W2 as <-.
    rewrite nth_error_map in A1, B1, A2, B2.
    destruct (nth_error (dof_pairs (local_vectors gms r1 e1)) i1) as [[j1 d1]|] eqn:P1; [|discriminate].
    destruct (nth_error (dof_pairs (local_vectors gms r2 e2)) i2) as [[j2 d2]|] eqn:P2; [|discriminate].
    simpl in *. injection A1 as <-. injection A2 as <-. injection B1 as <-. injection B2 as <-.
    apply nth_error_In in P1, P2.
    destruct (pair_bound _ _ _ WN r1 e1 j1 d1 He1 P1) as (g1 & _ & J1 & D1 & _).
    destruct (pair_bound _ _ _ WN r2 e2 j2 d2 He2 P2) as (g2 & _ & J2 & D2 & _).
    split; intros E.
    + destruct (offset_inj ns j1 d1 j2 d2) as (-> & ->); auto.
    + destruct (si_inj _ _ FI j1 d1 j2 d2) as (-> & ->); auto; rewrite FL; assumption.
  - intros m. split.
    + intros (r & e & w & W & I). destruct (elem_of_vec _ _ _ _ _ _ _ WN W) as (Hr & He).
      rewrite (seq_ok SIZE gms ns WN FC) in W by assumption. injection W as <-.
      apply in_map_iff in I. destruct I as ([j d] & <- & I).
      destruct (pair_bound _ _ _ WN r e j d He I) as (g & _ & J & D & _). simpl. rewrite <- CU.
      apply (si_lt _ _ FI). rewrite FL; assumption.
    + intros H. rewrite <- CU in H. destruct (si_sur _ _ FI m H) as (j & d & L & E).
      assert (J := FO j d L). rewrite FL in L by assumption.
      destruct (pairs_exist _ _ _ WN j d J L) as (r & e & Hr & He & I). exists r, e. eexists.
      rewrite (seq_ok SIZE gms ns WN FC) by assumption. split; [reflexivity|]. apply in_map_iff. exists (j, d). auto.
Qed.

(** the numbering hypothesis matters: one core, two matrices, elements numbered backwards *)
Lemma sequent_collision :
  exists gms ns, well_numbered 1 gms ns /\
    exists e1 e2 v1 w1 v2 w2 i1 i2 a1 a2 b,
      CGM_getitem 1 gms Silly 0 e1 = Some v1 /\ CGM_getitem 1 gms Sequent 0 e1 = Some w1 /\
      CGM_getitem 1 gms Silly 0 e2 = Some v2 /\ CGM_getitem 1 gms Sequent 0 e2 = Some w2 /\
      nth_error v1 i1 = Some a1 /\ nth_error v2 i2 = Some a2 /\ a1 <> a2 /\
      nth_error w1 i1 = Some b /\ nth_error w2 i2 = Some b.
Proof.
  exists [[[(0, [1]); (1, [0])]]; [[(0, [0]); (1, [1])]]], [2; 2]. split.
  - assert (O : forall g, g = [[(0, [1]); (1, [0])]] \/ g = [[(0, [0]); (1, [1])]] -> forall r e v, gv_of g r e = Some v ->
       r = 0 /\ (e = 0 \/ e = 1) /\ (v = [0] \/ v = [1])).
    { intros g Hg r e v. unfold gv_of, gm_local. destruct r as [|[|r]]; [|destruct Hg; subst; simpl; discriminate|destruct Hg; subst; simpl; discriminate].
      destruct e as [|[|e]]; destruct Hg; subst; simpl; intros E; try discriminate; injection E as <-; auto. }
    assert (EL : forall g, g = [[(0, [1]); (1, [0])]] \/ g = [[(0, [0]); (1, [1])]] -> forall r, elements g r = match r with 0 => [0; 1] | _ => [] end).
    { intros g Hg r. unfold elements, gm_local. destruct r as [|[|r]]; destruct Hg; subst; reflexivity. }
    constructor.
    + discriminate.
    + reflexivity.
    + intros g [<-|[<-|[]]]; reflexivity.
    + intros g r [<-|[<-|[]]]; rewrite EL by auto; destruct r; repeat constructor; simpl; intuition lia.
    + intros g g' r e [<-|[<-|[]]] [<-|[<-|[]]]; rewrite !EL by auto; auto.
    + intros g r e v [<-|[<-|[]]] E; (apply O in E; [|auto]); intuition (subst; discriminate).
    + intros j g n Eg En.
      assert (Hg : g = [[(0, [1]); (1, [0])]] \/ g = [[(0, [0]); (1, [1])]]) by (apply nth_error_In in Eg; simpl in Eg; intuition).
      assert (n = 2) by (apply nth_error_In in En; simpl in En; intuition). subst n. split; [lia|].
      intros d. split.
      * intros (r & e & v & E & I). apply O in E; [|assumption]. destruct E as (_ & _ & [-> | ->]); simpl in I; intuition lia.
      * intros L. assert (Hd : d = 0 \/ d = 1) by lia.
        destruct Hg as [-> | ->], Hd as [-> | ->]; unfold occurs; [exists 0, 1, [0]|exists 0, 0, [1]|exists 0, 0, [0]|exists 0, 1, [1]];
          (split; [reflexivity|simpl; auto]).
  - exists 0, 1. do 4 eexists. exists 0, 0. do 3 eexists.
    repeat (split; [vm_compute; reflexivity|]). split; [discriminate|].
    split; vm_compute; reflexivity.
Qed.
