(** The operations of multi-dimensional matrices compute values of the multilinear form. *)
From Coq Require Import List Arith Bool Lia Permutation Ring.
From Verif Require Import Prelude RingSum MdmModel MdmSpec MdmProofs.
Import ListNotations.

Lemma map_by_pos {A} (env : form -> A) (l : list form) : map env l = map (fun k => env (nth k l 0)) (seq 0 (length l)).
Proof.
  induction l as [|f l IH]; [reflexivity|]. simpl. f_equal. rewrite <- seq_shift, map_map. exact IH.
Qed.
Lemma index_of_nth f l k : NoDup l -> k < length l -> nth k l 0 = f -> index_of f l = Some k.
Proof.
  intros D H E. apply index_of_ok. split; [rewrite <- E; apply nth_error_nth'; exact H|].
  intros k' H' E'. assert (nth_error l k = Some f) as E2 by (rewrite <- E; apply nth_error_nth'; exact H).
  pose proof (proj1 (NoDup_nth_error l) D k k' H (eq_trans E2 (eq_sym E'))). lia.
Qed.
Lemma index_of_Some f l k : index_of f l = Some k -> k < length l /\ nth k l 0 = f.
Proof.
  intros E. apply index_of_ok in E. destruct E as [E _]. split; [apply nth_error_Some; congruence|].
  apply nth_error_nth with (d := 0) in E. exact E.
Qed.
Lemma index_of_In f l : In f l -> exists k, index_of f l = Some k.
Proof.
  intros I. destruct (index_of f l) as [k|] eqn:E; [eauto|]. apply index_of_None in E. tauto.
Qed.

Section P.
  Variable K : CRing.
  Add Ring Kring : (Rth K).
  Variable nb : form -> nat.
  Local Open Scope ring_s.

  (** * eliminate *)
  Lemma eliminate_ok (m : mdm K) k c :
    match eliminate K nb m k c with
    | None => (length (cor K m) <= k)%nat
    | Some m' => (k < length (cor K m))%nat /\ cor K m' = drop_at k (cor K m) /\
        forall e xs, length xs = (length (cor K m) - 1)%nat ->
          mval K (map nb (cor K m')) (arr K m' e) xs = mval K (map nb (cor K m)) (arr K m e) (put_at k (c e) xs)
    end.
  Proof.
    unfold eliminate, ndim. destruct (Nat.ltb_spec k (length (cor K m))) as [H|H]; [|exact H].
    split; [exact H|]. split; [reflexivity|]. intros e xs L. cbn [cor arr]. unfold dims.
    rewrite <- drop_at_map. replace (length (cor K m)) with (length (map nb (cor K m))) by apply map_length.
    apply einsum_elim; rewrite map_length; assumption.
  Qed.

  (** * the dictionary of eliminated axes *)
  Definition elims (l : list form) (pairs : list (form * local K)) : list (nat * local K) :=
    flat_map (fun p => match index_of (fst p) l with Some i => [(i, snd p)] | None => [] end) pairs.
  Lemma dset_new d k (v : local K) : ~ In k (map fst d) -> dset K d k v = d ++ [(k, v)].
  Proof.
    induction d as [|[k' v'] d IH]; simpl; intros H; [reflexivity|].
    destruct (Nat.eqb_spec k' k); [subst; tauto|]. rewrite IH by tauto. reflexivity.
  Qed.
  Lemma elims_key l pairs k : In k (map fst (elims l pairs)) <-> exists f, In f (map fst pairs) /\ index_of f l = Some k.
  Proof.
    unfold elims. rewrite in_map_iff. split.
    - intros ([k' v] & E & H). simpl in E. subst. apply in_flat_map in H. destruct H as ([f c] & I & H). simpl in H.
      destruct (index_of f l) as [i|] eqn:E; [|destruct H]. destruct H as [H|[]]. injection H as -> ->.
      exists f. split; [apply in_map_iff; exists (f, v); auto|exact E].
    - intros (f & I & E). apply in_map_iff in I. destruct I as ([f' c] & E' & I). simpl in E'. subst.
      exists (k, c). split; [reflexivity|]. apply in_flat_map. exists (f, c). split; [exact I|]. simpl. rewrite E. left. reflexivity.
  Qed.
  Lemma elims_NoDup l pairs : NoDup (map fst pairs) -> NoDup (map fst (elims l pairs)).
  Proof.
    induction pairs as [|[f c] ps IH]; simpl; intros D; [constructor|]. inversion D as [|? ? D1 D2]; subst.
    destruct (index_of f l) as [i|] eqn:E; [|exact (IH D2)]. simpl. constructor; [|exact (IH D2)].
    intros H. apply elims_key in H. destruct H as (f' & I & E').
    apply index_of_Some in E. apply index_of_Some in E'. destruct E as [_ E], E' as [_ E']. congruence.
  Qed.
  Lemma elims_ok (m : mdm K) pairs : NoDup (map fst pairs) -> eliminated_dimensions K m pairs = elims (cor K m) pairs.
  Proof.
    intros D. unfold eliminated_dimensions.
    assert (forall ps d, NoDup (map fst (d ++ elims (cor K m) ps)) ->
      fold_left (fun d p => match index_of (fst p) (cor K m) with Some i => dset K d i (snd p) | None => d end) ps d
      = d ++ elims (cor K m) ps) as H.
    { induction ps as [|[f c] ps IH]; intros d N; simpl; [now rewrite app_nil_r|].
      unfold elims in N |- *. simpl in N |- *. fold (elims (cor K m) ps) in N |- *.
      destruct (index_of f (cor K m)) as [i|] eqn:E; [|apply IH; exact N].
      rewrite dset_new.
      - rewrite IH; rewrite <- app_assoc; [reflexivity|exact N].
      - intros I. rewrite map_app in N. simpl in N. apply NoDup_remove_2 in N. apply N. rewrite in_app_iff. auto. }
    rewrite H; [reflexivity|]. simpl. apply elims_NoDup. exact D.
  Qed.
  Lemma elims_fac l pairs e k : NoDup l -> NoDup (map fst pairs) -> (k < length l)%nat -> In (nth k l 0%nat) (map fst pairs) ->
    fac K (map (fun p => (fst p, snd p e)) (elims l pairs)) k = given K pairs e (nth k l 0%nat).
  Proof.
    intros Dl. induction pairs as [|[f c] ps IH]; simpl; intros D H I; [destruct I|]. inversion D as [|? ? D1 D2]; subst.
    unfold elims. simpl. fold (elims l ps).
    destruct (Nat.eqb_spec f (nth k l 0%nat)) as [->|Df].
    - rewrite (index_of_nth _ l k Dl H eq_refl). unfold fac. simpl. rewrite Nat.eqb_refl. reflexivity.
    - destruct I as [E|I]; [congruence|].
      destruct (index_of f l) as [i|] eqn:E; [|apply IH; auto].
      unfold fac. simpl. destruct (Nat.eqb_spec i k) as [->|Di].
      + apply index_of_Some in E. destruct E as [_ E]. congruence.
      + apply IH; auto.
  Qed.
  (** the number of eliminated axes *)
  Lemma filter_pos (p : form -> bool) (l : list form) :
    length (filter (fun k => p (nth k l 0%nat)) (seq 0 (length l))) = length (filter p l).
  Proof.
    induction l as [|f l IH]; [reflexivity|]. cbn [length seq filter]. change (nth 0 (f :: l) 0%nat) with f.
    assert (length (filter (fun k => p (nth k (f :: l) 0%nat)) (seq 1 (length l))) = length (filter p l)) as A.
    { rewrite <- IH, <- seq_shift. clear IH. generalize (seq 0 (length l)). induction l0 as [|k l0 IH0]; [reflexivity|].
      cbn [map filter]. change (nth (S k) (f :: l) 0%nat) with (nth k l 0%nat).
      destruct (p (nth k l 0%nat)); cbn [length]; rewrite IH0; reflexivity. }
    destruct (p f); cbn [length]; rewrite A; reflexivity.
  Qed.
  Lemma elims_length l pairs : NoDup l -> NoDup (map fst pairs) ->
    length (elims l pairs) = length (filter (fun f => mem f (map fst pairs)) l).
  Proof.
    intros Dl D. rewrite <- filter_pos, <- (map_length fst). apply Permutation_length, NoDup_Permutation.
    - apply elims_NoDup, D.
    - apply NoDup_filter, seq_NoDup.
    - intros k. rewrite elims_key, filter_In, in_seq, mem_In. split.
      + intros (f & I & E). apply index_of_Some in E. destruct E as [H E]. split; [lia|]. rewrite E. exact I.
      + intros [H I]. exists (nth k l 0%nat). split; [exact I|]. apply index_of_nth; [exact Dl|lia|reflexivity].
  Qed.
  Lemma filter_split (p : form -> bool) l : (length (filter p l) + length (filter (fun f => negb (p f)) l) = length l)%nat.
  Proof. induction l as [|f l IH]; simpl; [reflexivity|]. destruct (p f); simpl; lia. Qed.

  (** the forms left *)
  Definition left_over (m : mdm K) (pairs : list (form * local K)) : list form :=
    filter (fun f => negb (mem f (map fst pairs))) (cor K m).
  Lemma remaining m pairs : NoDup (cor K m) -> NoDup (map fst pairs) ->
    (ndim K m - length (eliminated_dimensions K m pairs))%nat = length (left_over m pairs).
  Proof.
    intros Dc Dp. rewrite elims_ok, elims_length by assumption. unfold ndim, left_over.
    rewrite <- (filter_split (fun f => mem f (map fst pairs)) (cor K m)) at 1. lia.
  Qed.
  Lemma fst_ops (d : list (nat * local K)) e : map fst (map (fun p => (fst p, snd p e)) d) = map fst d.
  Proof. rewrite map_map. reflexivity. Qed.
  Lemma ops_lt (l : list form) pairs e p : In p (map (fun p => (fst p, snd p e)) (elims l pairs)) -> (fst p < length l)%nat.
  Proof.
    intros I. apply in_map with (f := fst) in I. rewrite fst_ops in I. apply elims_key in I.
    destruct I as (f & _ & E). apply index_of_Some in E. tauto.
  Qed.

  Lemma evaluate_all cores m pairs : NoDup (cor K m) -> NoDup (map fst pairs) ->
    (forall f, In f (cor K m) -> In f (map fst pairs)) ->
    evaluate K nb cores m pairs = Some (EReal K (bsum cores (fun es => bsum es (fun e => mform K nb m e (given K pairs e))))).
  Proof.
    intros Dc Dp H. unfold evaluate. rewrite remaining by assumption.
    assert (left_over m pairs = []) as ->.
    { unfold left_over. destruct (filter _ (cor K m)) as [|f l] eqn:E; [reflexivity|].
      assert (In f (f :: l)) as I by (left; reflexivity). rewrite <- E in I. apply filter_In in I. destruct I as [I J].
      apply H, mem_In in I. rewrite I in J. discriminate. }
    simpl. f_equal. f_equal. apply bsum_ext. intros es _. apply bsum_ext. intros e _.
    rewrite elims_ok by assumption. rewrite einsum_none.
    - unfold mform, dims. rewrite map_length. f_equal. rewrite (map_by_pos (given K pairs e)). apply map_ext_in. intros k Hk.
      apply in_seq in Hk. apply elims_fac; [assumption..|lia|]. apply H, nth_In. lia.
    - rewrite fst_ops. apply elims_NoDup. exact Dp.
    - intros p I. unfold dims. rewrite map_length. eapply ops_lt, I.
  Qed.
  Lemma evaluate_one cores m pairs f : NoDup (cor K m) -> NoDup (map fst pairs) -> In f (cor K m) -> ~ In f (map fst pairs) ->
    (forall g, In g (cor K m) -> g <> f -> In g (map fst pairs)) ->
    exists v, evaluate K nb cores m pairs = Some (EVec K v) /\
      forall e i, v e i = mform K nb m e (upd K (given K pairs e) f (unit K i)).
  Proof.
    intros Dc Dp I NI H. unfold evaluate. rewrite remaining by assumption.
    destruct (index_of_In f (cor K m) I) as [r Er]. destruct (index_of_Some _ _ _ Er) as [Hr Nr].
    assert (length (left_over m pairs) = 1%nat) as ->.
    { assert (Permutation (left_over m pairs) [f]) as P.
      { apply NoDup_Permutation; [apply NoDup_filter, Dc|constructor; [simpl; tauto|constructor]|].
        intros g. unfold left_over. rewrite filter_In. simpl. split.
        - intros [J E]. destruct (Nat.eq_dec g f) as [->|D]; [auto|]. apply (H g J), mem_In in D. rewrite D in E. discriminate.
        - intros [<-|[]]. split; [exact I|]. apply negb_true_iff, mem_false, NI. }
      rewrite (Permutation_length P). reflexivity. }
    eexists. split; [reflexivity|]. intros e i. cbn beta.
    assert (rm_dim (ndim K m) (map fst (eliminated_dimensions K m pairs)) = r) as ->.
    { rewrite elims_ok by assumption. unfold rm_dim, ndim.
      destruct (find _ _) as [k|] eqn:E.
      - apply find_some in E. destruct E as [Hk E]. apply in_seq in Hk. apply negb_true_iff, mem_false in E.
        destruct (Nat.eq_dec k r) as [->|D]; [reflexivity|]. exfalso. apply E, elims_key.
        exists (nth k (cor K m) 0%nat). split; [|apply index_of_nth; [exact Dc|lia|reflexivity]].
        apply H; [apply nth_In; lia|]. intros E'. apply D.
        pose proof (index_of_nth f (cor K m) k Dc ltac:(lia) E') as E2. congruence.
      - exfalso. apply find_none with (x := r) in E; [|apply in_seq; lia]. apply negb_false_iff, mem_In, elims_key in E.
        destruct E as (g & J & E). apply index_of_Some in E. destruct E as [_ E]. congruence. }
    rewrite elims_ok by assumption. rewrite einsum_one.
    - unfold mform, dims. rewrite map_length. f_equal. rewrite (map_by_pos (upd K (given K pairs e) f (unit K i))).
      apply map_ext_in. intros k Hk. apply in_seq in Hk. unfold upd.
      destruct (Nat.eqb_spec k r) as [->|D]; [rewrite Nr, Nat.eqb_refl; reflexivity|].
      assert (nth k (cor K m) 0%nat <> f) as D2.
      { intros E'. apply D. pose proof (index_of_nth f (cor K m) k Dc ltac:(lia) E'). congruence. }
      rewrite (proj2 (Nat.eqb_neq _ _) D2). apply elims_fac; [assumption..|lia|].
      apply H; [apply nth_In; lia|exact D2].
    - rewrite fst_ops. apply elims_NoDup. exact Dp.
    - intros p J. unfold dims. rewrite map_length. eapply ops_lt, J.
    - unfold dims. rewrite map_length. exact Hr.
    - rewrite fst_ops, elims_key. intros (g & J & E). apply index_of_Some in E. destruct E as [_ E]. congruence.
    - unfold dims. rewrite map_length, fst_ops. intros k Hk D. apply elims_key.
      exists (nth k (cor K m) 0%nat). split; [|apply index_of_nth; [exact Dc|lia|reflexivity]].
      apply H; [apply nth_In; lia|]. intros E'. apply D. pose proof (index_of_nth f (cor K m) k Dc ltac:(lia) E'). congruence.
  Qed.
  Lemma evaluate_more cores m pairs : NoDup (cor K m) -> NoDup (map fst pairs) -> (2 <= length (left_over m pairs))%nat ->
    evaluate K nb cores m pairs = None.
  Proof.
    intros Dc Dp H. unfold evaluate. rewrite remaining by assumption.
    destruct (length (left_over m pairs)) as [|[|n]]; [lia|lia|reflexivity].
  Qed.

  (** * reduce_to_vector *)
  Lemma fac_map (g : nat -> nat -> K) l k : In k l -> NoDup l -> fac K (map (fun k => (k, g k)) l) k = g k.
  Proof.
    induction l as [|k' l IH]; simpl; intros I D; [destruct I|]. inversion D; subst. unfold fac. simpl.
    destruct (Nat.eqb_spec k' k) as [->|Dk]; [reflexivity|]. destruct I as [E|I]; [congruence|]. apply IH; auto.
  Qed.
  (** the first axis of v kept, all others contracted with the cochains of their forms *)
  Lemma reduce_ok (m : mdm K) v c :
    match reduce_to_vector K nb m v c with
    | None => (length (cor K m) < 2)%nat \/ ~ In v (cor K m)
    | Some w => (2 <= length (cor K m))%nat /\ exists r, index_of v (cor K m) = Some r /\
        forall e i, w e i = mval K (map nb (cor K m)) (arr K m e)
          (map (fun k => if (k =? r)%nat then unit K i else c (nth k (cor K m) 0%nat) e) (seq 0 (length (cor K m))))
    end.
  Proof.
    unfold reduce_to_vector, ndim. destruct (Nat.leb_spec 2 (length (cor K m))) as [H|H]; [|left; exact H].
    destruct (index_of v (cor K m)) as [r|] eqn:E; [|right; apply index_of_None; exact E].
    split; [exact H|]. exists r. split; [reflexivity|]. intros e i. destruct (index_of_Some _ _ _ E) as [Hr Nr].
    assert (map fst (map (fun k => (k, c (nth k (cor K m) 0%nat) e)) (filter (fun k => negb (k =? r)%nat) (seq 0 (length (cor K m)))))
            = filter (fun k => negb (k =? r)%nat) (seq 0 (length (cor K m)))) as Ef.
    { rewrite map_map. apply map_id. }
    rewrite einsum_one.
    - unfold dims. rewrite map_length. f_equal. apply map_ext_in. intros k Hk.
      destruct (Nat.eqb_spec k r) as [->|D]; [reflexivity|].
      apply (fac_map (fun k => c (nth k (cor K m) 0%nat) e)).
      + apply filter_In. split; [exact Hk|]. apply negb_true_iff, Nat.eqb_neq, D.
      + apply NoDup_filter, seq_NoDup.
    - rewrite Ef. apply NoDup_filter, seq_NoDup.
    - intros p I. unfold dims. rewrite map_length. apply in_map with (f := fst) in I. rewrite Ef in I.
      apply filter_In in I. destruct I as [I _]. apply in_seq in I. lia.
    - unfold dims. rewrite map_length. exact Hr.
    - rewrite Ef, filter_In. intros [_ E']. rewrite Nat.eqb_refl in E'. discriminate.
    - unfold dims. rewrite map_length, Ef. intros k Hk D. apply filter_In. split; [apply in_seq; lia|].
      apply negb_true_iff, Nat.eqb_neq, D.
  Qed.
  Lemma reduce_inhomogeneous (m : mdm K) v c : NoDup (cor K m) -> (2 <= length (cor K m))%nat -> In v (cor K m) ->
    exists w, reduce_to_vector K nb m v c = Some w /\
      forall e i, w e i = mform K nb m e (upd K (fun f => c f e) v (unit K i)).
  Proof.
    intros D H I. pose proof (reduce_ok m v c) as R. destruct (reduce_to_vector K nb m v c) as [w|]; [|destruct R; [lia|tauto]].
    exists w. split; [reflexivity|]. destruct R as (_ & r & E & R). intros e i. rewrite R. unfold mform. f_equal.
    rewrite (map_by_pos (upd K (fun f => c f e) v (unit K i))). apply map_ext_in. intros k Hk. apply in_seq in Hk.
    destruct (index_of_Some _ _ _ E) as [Hr Nr]. unfold upd.
    destruct (Nat.eqb_spec k r) as [->|Dk]; [rewrite Nr, Nat.eqb_refl; reflexivity|].
    rewrite (proj2 (Nat.eqb_neq _ _)); [reflexivity|]. intros E'. apply Dk.
    pose proof (index_of_nth v (cor K m) k D ltac:(lia) E'). congruence.
  Qed.
  (** * a form given twice *)
  Lemma dset_dset d k (v v' : local K) : dset K (dset K d k v) k v' = dset K d k v'.
  Proof.
    induction d as [|[k' w] d IH]; simpl; [rewrite Nat.eqb_refl; reflexivity|].
    destruct (Nat.eqb_spec k' k) as [->|D]; simpl; [rewrite Nat.eqb_refl; reflexivity|].
    destruct (Nat.eqb_spec k' k); [contradiction|]. rewrite IH. reflexivity.
  Qed.
  Lemma dset_swap d k j (v w : local K) : k <> j -> In k (map fst d) -> dset K (dset K d j w) k v = dset K (dset K d k v) j w.
  Proof.
    intros D. induction d as [|[k' u] d IH]; simpl; intros I; [destruct I|].
    destruct (Nat.eqb_spec k' j) as [->|D1]; simpl.
    - destruct (Nat.eqb_spec j k); [congruence|]. simpl. rewrite Nat.eqb_refl. reflexivity.
    - destruct (Nat.eqb_spec k' k) as [->|D2]; simpl.
      + destruct (Nat.eqb_spec k j); [contradiction|]. reflexivity.
      + destruct (Nat.eqb_spec k' j); [contradiction|]. rewrite IH by tauto. reflexivity.
  Qed.
  Lemma dset_in d k j (v : local K) : k = j \/ In k (map fst d) -> In k (map fst (dset K d j v)).
  Proof.
    induction d as [|[k' u] d IH]; simpl; intros I; [destruct I as [->|[]]; auto|].
    destruct (Nat.eqb_spec k' j) as [->|D]; simpl; [destruct I as [->|[->|I]]; auto|].
    destruct I as [->|[->|I]]; auto.
  Qed.
  Lemma dset_last (m : mdm K) ps f i (c c' : local K) d : index_of f (cor K m) = Some i -> ~ In f (map fst ps) ->
    let go := fold_left (fun d p => match index_of (fst p) (cor K m) with Some i => dset K d i (snd p) | None => d end) in
    In i (map fst (go ps (dset K d i c))) /\ dset K (go ps (dset K d i c)) i c' = go ps (dset K d i c').
  Proof.
    intros E H go. revert H. unfold go. induction ps as [|[g b] ps IH] using rev_ind; intros H.
    - simpl. split; [apply dset_in; auto|apply dset_dset].
    - rewrite !fold_left_app. cbn [fold_left fst snd]. rewrite map_app, in_app_iff in H. simpl in H.
      destruct IH as [I IH]; [tauto|].
      destruct (index_of g (cor K m)) as [j|] eqn:Ej; [|auto].
      assert (i <> j) as D by (intros ->; apply index_of_Some in E; apply index_of_Some in Ej; destruct E, Ej; apply H; right; left; congruence).
      split; [apply dset_in; auto|]. rewrite dset_swap by assumption. rewrite IH. reflexivity.
  Qed.
  Lemma evaluate_twice cores (m : mdm K) ps1 ps2 f c c' : ~ In f (map fst ps2) ->
    evaluate K nb cores m (ps1 ++ (f, c) :: ps2 ++ [(f, c')]) = evaluate K nb cores m (ps1 ++ (f, c') :: ps2).
  Proof.
    intros H. assert (eliminated_dimensions K m (ps1 ++ (f, c) :: ps2 ++ [(f, c')]) = eliminated_dimensions K m (ps1 ++ (f, c') :: ps2)) as E.
    { unfold eliminated_dimensions. rewrite !fold_left_app. cbn [fold_left fst snd]. rewrite fold_left_app. cbn [fold_left fst snd].
      destruct (index_of f (cor K m)) as [i|] eqn:E; [|reflexivity]. apply (dset_last m ps2 f i c c' _ E H). }
    unfold evaluate. rewrite E. reflexivity.
  Qed.
End P.
