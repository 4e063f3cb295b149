(** Proofs for C10-C13. *)
From Coq Require Import List Arith ZArith Lia Bool Permutation.
From Coq Require String.
From Verif Require Import Prelude PreludeProofs AssembleModel AssembleProofs GatherModel GatherSpec.
Import ListNotations.
Local Open Scope nat_scope.
Local Arguments sum : simpl never.

Lemma length_TBA acc ns : length (To_Be_Added acc ns) = length ns.
Proof. revert acc. induction ns; simpl; intros; auto. Qed.

Lemma nth_TBA ns : forall acc j, j < length ns -> nth j (To_Be_Added acc ns) 0 = acc + sum (firstn j ns).
Proof.
  induction ns as [|n ns IH]; simpl; intros acc j H; [lia|]. destruct j; simpl; [unfold sum; simpl; lia|].
  rewrite IH by lia. rewrite sum_cons. lia.
Qed.

Lemma last_TBA ns : forall acc, ns <> [] -> last (To_Be_Added acc ns) 0 + last ns 0 = acc + sum ns.
Proof.
  induction ns as [|n ns IH]; intros acc H; [congruence|]. destruct ns as [|m ns].
  - unfold sum. simpl. lia.
  - change (last (To_Be_Added acc (n :: m :: ns)) 0) with (last (To_Be_Added (acc + n) (m :: ns)) 0).
    change (last (n :: m :: ns) 0) with (last (m :: ns) 0).
    rewrite IH by discriminate. rewrite !sum_cons. lia.
Qed.

Lemma lookup_In {V} (l : list (nat * V)) k v : lookup Nat.eqb k l = Some v -> In (k, v) l.
Proof.
  induction l as [|[k' v'] l IH]; simpl; [discriminate|]. destruct (Nat.eqb_spec k k') as [->|].
  - intros E. injection E as ->. auto.
  - auto.
Qed.

Lemma lookup_In_iff {V} (l : list (nat * V)) k v : NoDup (map fst l) -> (lookup Nat.eqb k l = Some v <-> In (k, v) l).
Proof.
  intros N. split; [apply lookup_In|]. intros I.
  apply (lookup_in nat Nat.eqb Nat.eqb_eq); assumption.
Qed.

Lemma lookup_keys {V} (l : list (nat * V)) k : In k (map fst l) <-> exists v, lookup Nat.eqb k l = Some v.
Proof.
  induction l as [|[k' v'] l IH]; simpl.
  - split; [tauto|]. intros [v E]. discriminate.
  - destruct (Nat.eqb_spec k k') as [->|D].
    + split; [eauto|auto].
    + rewrite <- IH. split; [intros [->|]; tauto|auto].
Qed.

(** * enumerate *)
Lemma length_enumerate {A} (l : list A) : length (enumerate l) = length l.
Proof. unfold enumerate. rewrite combine_length, seq_length. lia. Qed.

Lemma nth_error_combine {A B} (l : list A) (m : list B) i a b :
  nth_error l i = Some a -> nth_error m i = Some b -> nth_error (combine l m) i = Some (a, b).
Proof. revert l m. induction i; destruct l, m; simpl; try discriminate; intros; [congruence|auto]. Qed.

Lemma nth_error_enumerate {A} (l : list A) i : nth_error (enumerate l) i = option_map (pair i) (nth_error l i).
Proof.
  destruct (nth_error l i) eqn:E.
  - simpl. apply nth_error_combine; [|assumption].
    assert (i < length l) by (apply nth_error_Some; congruence).
    assert (K := nth_error_map_seq (fun x => x) 0 (length l) i). rewrite map_id in K. rewrite K.
    replace (i <? length l) with true by (symmetry; apply Nat.ltb_lt; assumption). reflexivity.
  - simpl. apply nth_error_None. rewrite length_enumerate. apply nth_error_None. assumption.
Qed.

Lemma in_enumerate {A} (l : list A) i a : In (i, a) (enumerate l) <-> nth_error l i = Some a.
Proof.
  split.
  - intros I. apply In_nth_error in I. destruct I as (n & E). rewrite nth_error_enumerate in E.
    destruct (nth_error l n) eqn:E'; [|discriminate]. simpl in E. injection E as <- <-. assumption.
  - intros E. apply (nth_error_In _ i). rewrite nth_error_enumerate, E. reflexivity.
Qed.

Lemma combine_map_r {A B C} (f : B -> C) (l : list A) (m : list B) :
  combine l (map f m) = map (fun p => (fst p, f (snd p))) (combine l m).
Proof. revert m. induction l; destruct m; simpl; f_equal; auto. Qed.

Lemma enumerate_map {A B} (f : A -> B) (l : list A) :
  enumerate (map f l) = map (fun p => (fst p, f (snd p))) (enumerate l).
Proof. unfold enumerate. rewrite map_length, combine_map_r. reflexivity. Qed.

(** the (matrix, dof) pairs behind the chained vector *)
Definition dof_pairs (vs : list GV) : list (nat * nat) :=
  concat (map (fun jv => map (pair (fst jv)) (snd jv)) (enumerate vs)).

Lemma in_dof_pairs vs j d : In (j, d) (dof_pairs vs) <-> exists v, nth_error vs j = Some v /\ In d v.
Proof.
  unfold dof_pairs. rewrite in_concat. split.
  - intros (l & I & K). apply in_map_iff in I. destruct I as ([j' v] & <- & I). apply in_enumerate in I.
    simpl in K. apply in_map_iff in K. destruct K as (d' & E & K). injection E as <- <-. eauto.
  - intros (v & E & I). exists (map (pair j) v). split; [|apply in_map; assumption].
    apply in_map_iff. exists (j, v). split; [reflexivity|]. apply in_enumerate. assumption.
Qed.

Lemma in_enumerate_gms (gms : list GMat) jg : In jg (enumerate gms) -> In (snd jg) gms.
Proof. destruct jg as [j g]. intros I. apply in_enumerate in I. eapply nth_error_In. eassumption. Qed.

Section Chain.
  Variables (SIZE : nat) (gms : list GMat) (ns : list nat).
  Hypothesis WN : well_numbered SIZE gms ns.

  Lemma gms_cons : exists g0 rest, gms = g0 :: rest.
  Proof. destruct gms; [destruct (wn_some _ _ _ WN); reflexivity|eauto]. Qed.

  Definition g0 := nth 0 gms [].
  Lemma g0_in : In g0 gms.
  Proof. unfold g0. destruct gms_cons as (g & rest & ->). left. reflexivity. Qed.

  Definition vec g r e : GV := match gv_of g r e with Some v => v | None => [] end.

  Lemma gv_some g r e : In g gms -> In e (elements g0 r) -> gv_of g r e = Some (vec g r e).
  Proof.
    intros Hg He. apply (wn_elem _ _ _ WN g0 g) in He; auto using g0_in.
    unfold vec, gv_of. apply lookup_keys in He. destruct He as (v & ->). reflexivity.
  Qed.

  Lemma elements_local r : SIZE <= r -> forall g, In g gms -> gm_local g r = [].
  Proof. intros H g Hg. unfold gm_local. apply nth_overflow. rewrite (wn_size _ _ _ WN g Hg). assumption. Qed.

  Lemma core_of g r e v : In g gms -> gv_of g r e = Some v -> r < SIZE /\ In e (elements g0 r) /\ v = vec g r e.
  Proof.
    intros Hg E. destruct (le_lt_dec SIZE r) as [H|H].
    - unfold gv_of in E. rewrite elements_local in E by assumption. discriminate.
    - split; [assumption|]. assert (In e (elements g r)) by (apply lookup_keys; eauto).
      split; [apply (wn_elem _ _ _ WN g g0); auto using g0_in|]. unfold vec. rewrite E. reflexivity.
  Qed.

  Lemma same_elements_ok r : same_elements gms r = true.
  Proof.
    unfold same_elements. destruct gms_cons as (g & rest & E). rewrite E. apply forallb_forall. intros h Hh.
    assert (Ig : In g gms) by (rewrite E; left; reflexivity).
    assert (Ih : In h gms) by (rewrite E; right; assumption).
    apply andb_true_iff. split.
    - apply Nat.eqb_eq. assert (P : Permutation (elements h r) (elements g r)).
      { apply NoDup_Permutation; try (apply (wn_keys _ _ _ WN); assumption).
        intros e. split; apply (wn_elem _ _ _ WN); assumption. }
      apply Permutation_length in P. unfold elements in P. rewrite !map_length in P. assumption.
    - apply forallb_forall. intros e He. apply existsb_exists. exists e. split; [|apply Nat.eqb_refl].
      apply (wn_elem _ _ _ WN g h); assumption.
  Qed.

  Lemma in_concat_local (g : GMat) kv : In kv (concat g) <-> exists r, In kv (gm_local g r).
  Proof.
    rewrite in_concat. unfold gm_local. split.
    - intros (l & I & K). apply In_nth_error in I. destruct I as (r & E). exists r.
      rewrite (nth_error_nth _ _ _ E). assumption.
    - intros (r & I). destruct (nth_error g r) as [l|] eqn:E.
      + exists l. split; [eapply nth_error_In; eassumption|]. rewrite (nth_error_nth _ _ _ E) in I. assumption.
      + apply nth_error_None in E. rewrite nth_overflow in I by assumption. destruct I.
  Qed.

  Lemma in_concat_gv g e v : In g gms -> (In (e, v) (concat g) <-> exists r, gv_of g r e = Some v).
  Proof.
    intros Hg. rewrite in_concat_local. split; intros (r & H); exists r.
    - unfold gv_of. apply lookup_In_iff; [|assumption]. apply (wn_keys _ _ _ WN g r Hg).
    - apply lookup_In in H. assumption.
  Qed.

  Lemma num_dofs_ok j g n : nth_error gms j = Some g -> nth_error ns j = Some n -> global_num_dofs g = Some n.
  Proof.
    intros Eg En. destruct (wn_dofs _ _ _ WN j g n Eg En) as (Hn & HD).
    assert (Hg : In g gms) by (eapply nth_error_In; eassumption).
    unfold global_num_dofs.
    replace (existsb _ (map snd (concat g))) with false.
    2:{ symmetry. apply not_true_iff_false. intros H. apply existsb_exists in H. destruct H as (v & I & E).
        apply in_map_iff in I. destruct I as ([e v'] & <- & I). apply in_concat_gv in I; [|assumption].
        destruct I as (r & Er). simpl in E. apply (wn_nonempty _ _ _ WN g r e v' Hg) in Er.
        destruct v'; [congruence|discriminate]. }
    assert (HI : forall d, In d (concat (map snd (concat g))) <-> d < n).
    { intros d. rewrite <- HD. unfold occurs. rewrite in_concat. split.
      - intros (v & I & K). apply in_map_iff in I. destruct I as ([e v'] & <- & I).
        apply in_concat_gv in I; [|assumption]. destruct I as (r & Er). eauto.
      - intros (r & e & v & Er & K). exists v. split; [|assumption]. apply in_map_iff.
        exists (e, v). split; [reflexivity|]. apply in_concat_gv; eauto. }
    assert (HM : maxl (concat (map snd (concat g))) = n - 1).
    { apply Nat.le_antisymm.
      - apply maxl_le. intros x Hx. apply HI in Hx. lia.
      - apply maxl_in, HI. lia. }
    destruct (map snd (concat g)) as [|v vs] eqn:EV.
    - exfalso. assert (0 < n) by assumption. apply HI in H. destruct H.
    - rewrite HM. f_equal. lia.
  Qed.

  Lemma chain_check_ok : chain_check SIZE gms = Some ns.
  Proof.
    unfold chain_check. destruct gms_cons as (g & rest & E). rewrite E at 1.
    replace (forallb (same_elements gms) (seq 0 SIZE)) with true.
    2:{ symmetry. apply forallb_forall. intros. apply same_elements_ok. }
    apply all_some_map. assert (HL := wn_len _ _ _ WN).
    assert (H : forall j g n, nth_error gms j = Some g -> nth_error ns j = Some n -> global_num_dofs g = Some n)
      by (intros; eapply num_dofs_ok; eassumption).
    clear - HL H. revert ns HL H. induction gms as [|h gs IH]; intros [|n ns] HL H; simpl in HL; try lia; constructor.
    - apply (H 0); reflexivity.
    - apply IH; [lia|]. intros j h' n' E1 E2. apply (H (S j)); assumption.
  Qed.

  Lemma total_ok : CGM_global_num_dofs SIZE gms = Some (sum ns).
  Proof.
    unfold CGM_global_num_dofs. rewrite chain_check_ok. simpl. f_equal. rewrite last_TBA; [reflexivity|].
    intros Ens. assert (H := wn_len _ _ _ WN). rewrite Ens in H. destruct gms_cons as (g & rest & E). rewrite E in H. discriminate.
  Qed.

  Lemma vectors_ok r e : In e (elements g0 r) -> local_vectors gms r e = map (fun g => vec g r e) gms.
  Proof. reflexivity. Qed.

  Lemma chained_ok F r e : In e (elements g0 r) ->
    chained F gms r e = Some (map (fun p => F (fst p) (snd p)) (dof_pairs (local_vectors gms r e))).
  Proof.
    intros He. unfold chained.
    assert (E : all_some (map (fun jg => option_map (map (F (fst jg))) (gv_of (snd jg) r e)) (enumerate gms)) =
      Some (map (fun jv => map (F (fst jv)) (snd jv)) (enumerate (local_vectors gms r e)))).
    { unfold local_vectors. rewrite enumerate_map, map_map. apply all_some_map.
      assert (H : forall jg, In jg (enumerate gms) -> In (snd jg) gms) by apply in_enumerate_gms.
      induction (enumerate gms) as [|jg l IH]; constructor.
      - rewrite (gv_some (snd jg) r e); [reflexivity|apply H; left; reflexivity|assumption].
      - apply IH. intros. apply H. right. assumption. }
    rewrite E. simpl. f_equal. unfold dof_pairs. rewrite concat_map, map_map. f_equal. apply map_ext.
    intros [j v]. simpl. rewrite map_map. reflexivity.
  Qed.

  Lemma silly_ok r e : In e (elements g0 r) ->
    silly_getitem ns gms r e = Some (map (fun p => snd p + sum (firstn (fst p) ns)) (dof_pairs (local_vectors gms r e))).
  Proof.
    intros He.
    assert (G : chained (fun j d => d + nth j (To_Be_Added 0 ns) 0) gms r e =
       Some (map (fun p => snd p + sum (firstn (fst p) ns)) (dof_pairs (local_vectors gms r e)))).
    { rewrite chained_ok by assumption. f_equal. apply map_ext_in. intros [j d] I. simpl.
      apply in_dof_pairs in I. destruct I as (v & E & _).
      assert (j < length (local_vectors gms r e)) by (apply nth_error_Some; congruence).
      unfold local_vectors in H. rewrite map_length in H. rewrite nth_TBA by (rewrite (wn_len _ _ _ WN); assumption).
      reflexivity. }
    unfold silly_getitem. destruct gms as [|g [|g' rest]] eqn:EG; try assumption.
    rewrite <- G. unfold chained, enumerate. simpl. unfold g0 in He. rewrite EG in He. simpl in He.
    apply lookup_keys in He. destruct He as (v & E). unfold gv_of. rewrite E. simpl. rewrite app_nil_r. f_equal.
    rewrite <- (map_id v) at 1. apply map_ext. intros d. destruct ns; simpl; lia.
  Qed.

  Lemma offset_inj j1 d1 j2 d2 : j1 < length ns -> j2 < length ns -> d1 < nth j1 ns 0 -> d2 < nth j2 ns 0 ->
    d1 + sum (firstn j1 ns) = d2 + sum (firstn j2 ns) -> j1 = j2 /\ d1 = d2.
  Proof.
    intros H1 H2 D1 D2 E. destruct (Nat.lt_trichotomy j1 j2) as [L|[L|L]].
    - assert (K := sum_firstn_le ns (S j1) j2 ltac:(lia)). rewrite sum_firstn_S in K by assumption. lia.
    - subst. lia.
    - assert (K := sum_firstn_le ns (S j2) j1 ltac:(lia)). rewrite sum_firstn_S in K by assumption. lia.
  Qed.

  Lemma offset_cover m : m < sum ns -> exists j d, j < length ns /\ d < nth j ns 0 /\ m = d + sum (firstn j ns).
  Proof.
    clear. revert m. induction ns as [|n l IH]; intros m H; [unfold sum in H; simpl in H; lia|].
    rewrite sum_cons in H. destruct (le_lt_dec n m) as [L|L].
    - destruct (IH (m - n)) as (j & d & Hj & Hd & E); [lia|]. exists (S j), d. simpl. rewrite sum_cons. lia.
    - exists 0, m. simpl. unfold sum. simpl. lia.
  Qed.

  Lemma offset_lt j d : j < length ns -> d < nth j ns 0 -> d + sum (firstn j ns) < sum ns.
  Proof.
    intros H D. assert (K := sum_firstn_le ns (S j) (length ns) ltac:(lia)).
    rewrite sum_firstn_S in K by assumption. rewrite firstn_all in K. lia.
  Qed.

  Lemma nth_ns j g : nth_error gms j = Some g -> j < length ns /\ nth_error ns j = Some (nth j ns 0).
  Proof.
    intros E. assert (j < length gms) by (apply nth_error_Some; congruence).
    rewrite <- (wn_len _ _ _ WN) in H. split; [assumption|]. apply nth_error_nth'. assumption.
  Qed.

  Lemma pair_bound r e j d : In e (elements g0 r) -> In (j, d) (dof_pairs (local_vectors gms r e)) ->
    exists g, nth_error gms j = Some g /\ j < length ns /\ d < nth j ns 0 /\ In d (vec g r e).
  Proof.
    intros He I. apply in_dof_pairs in I. destruct I as (v & E & I). unfold local_vectors in E.
    rewrite nth_error_map in E. destruct (nth_error gms j) as [g|] eqn:Eg; [|discriminate].
    simpl in E. injection E as E. exists g. destruct (nth_ns j g Eg) as (Hj & En).
    split; [reflexivity|]. split; [assumption|].
    assert (Hg : In g gms) by (eapply nth_error_In; eassumption).
    assert (I' : In d (vec g r e)) by (unfold vec; rewrite E; assumption).
    split; [|assumption].
    destruct (wn_dofs _ _ _ WN j g _ Eg En) as (_ & HD). apply HD. exists r, e, (vec g r e).
    split; [apply gv_some; assumption|assumption].
  Qed.

  Lemma CGM_silly r e : CGM_getitem SIZE gms Silly r e = silly_getitem ns gms r e.
  Proof. unfold CGM_getitem. rewrite chain_check_ok. destruct gms as [|g [|g' rest]]; reflexivity. Qed.

  Lemma pairs_exist j d : j < length ns -> d < nth j ns 0 ->
    exists r e, r < SIZE /\ In e (elements g0 r) /\ In (j, d) (dof_pairs (local_vectors gms r e)).
  Proof.
    intros Hj Hd. assert (Lj : j < length gms) by (rewrite <- (wn_len _ _ _ WN); assumption).
    destruct (nth_error gms j) as [g|] eqn:Eg; [|apply nth_error_None in Eg; lia].
    destruct (nth_ns j g Eg) as (_ & En). destruct (wn_dofs _ _ _ WN j g _ Eg En) as (_ & HD).
    apply HD in Hd. destruct Hd as (r & e & v & E & I).
    assert (Hg : In g gms) by (eapply nth_error_In; eassumption).
    destruct (core_of g r e v Hg E) as (Hr & He & Ev). exists r, e. split; [assumption|]. split; [assumption|].
    apply in_dof_pairs. exists v. split; [|assumption]. unfold local_vectors. rewrite nth_error_map, Eg. simpl.
    rewrite E. reflexivity.
  Qed.

  Lemma getitem_elements m r e v : CGM_getitem SIZE gms m r e = Some v -> r < SIZE /\ In e (elements g0 r).
  Proof.
    intros H. destruct gms_cons as (g & rest & E).
    assert (C : forall w, gv_of g r e = Some w -> r < SIZE /\ In e (elements g0 r)).
    { intros w Ew. destruct (core_of g r e w) as (A & B & _); [rewrite E; left; reflexivity|assumption|auto]. }
    assert (G : forall F, chained F (g :: rest) r e <> None -> r < SIZE /\ In e (elements g0 r)).
    { intros F Hc. destruct (gv_of g r e) as [w|] eqn:K; [eauto|]. exfalso. apply Hc.
      unfold chained, enumerate. simpl. rewrite K. reflexivity. }
    unfold CGM_getitem in H. rewrite chain_check_ok, E in H. clear E.
    assert (GS : silly_getitem ns (g :: rest) r e = Some v -> r < SIZE /\ In e (elements g0 r)).
    { intros K. unfold silly_getitem in K. destruct rest as [|g' rest]; [eauto|].
      eapply G. rewrite K. discriminate. }
    destruct rest as [|g' rest]; [destruct m; auto|].
    destruct m; [auto|]. destruct (all_some _); [|discriminate]. eapply G. rewrite H. discriminate.
  Qed.

  Lemma silly_cover m : (exists r e v, CGM_getitem SIZE gms Silly r e = Some v /\ In m v) <-> m < sum ns.
  Proof.
    split.
    - intros (r & e & v & E & I). destruct (getitem_elements _ _ _ _ E) as (Hr & He).
      rewrite CGM_silly, silly_ok in E by assumption. injection E as <-.
      apply in_map_iff in I. destruct I as ([j d] & <- & I).
      destruct (pair_bound r e j d He I) as (g & _ & Hj & Hd & _). simpl. apply offset_lt; assumption.
    - intros H. destruct (offset_cover m H) as (j & d & Hj & Hd & ->).
      destruct (pairs_exist j d Hj Hd) as (r & e & Hr & He & I). exists r, e. eexists.
      rewrite CGM_silly, silly_ok by assumption. split; [reflexivity|]. apply in_map_iff. exists (j, d). auto.
  Qed.

  Lemma concat_pairs (f : nat -> nat -> nat) vs :
    map (fun p => f (fst p) (snd p)) (dof_pairs vs) =
    concat (map (fun jv => map (f (fst jv)) (snd jv)) (enumerate vs)).
  Proof.
    unfold dof_pairs. rewrite concat_map, map_map. f_equal. apply map_ext. intros [j v]. simpl. rewrite map_map. reflexivity.
  Qed.

  Lemma silly_value r e : r < SIZE -> In e (elements (nth 0 gms []) r) ->
    CGM_getitem SIZE gms Silly r e =
      Some (concat (map (fun jv => map (fun d => d + sum (firstn (fst jv) ns)) (snd jv))
                        (enumerate (local_vectors gms r e)))).
  Proof.
    intros Hr He. rewrite CGM_silly, silly_ok by assumption. f_equal.
    apply (concat_pairs (fun j d => d + sum (firstn j ns))).
  Qed.
End Chain.
