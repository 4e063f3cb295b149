From Coq Require Import List Arith ZArith Lia Bool Permutation.
From Coq Require Import ZifyBool.
From Verif Require Import Prelude PreludeProofs SchedModel.
Import ListNotations.

(** * CHAINING *)
Section Chain.
Variable SIZE : nat.
Hypothesis HS : 1 <= SIZE.
Variable prog : nat -> list instr.
Hypothesis Hprog : forall r, r < SIZE -> CHAINING SIZE r = Some (prog r).

Lemma chaining_total r : r < SIZE -> CHAINING SIZE r <> None.
Proof.
  intros Hr. unfold CHAINING.
  destruct (Nat.eqb_spec SIZE 1); [discriminate|].
  destruct (Nat.eqb_spec r 0); [discriminate|].
  destruct (Nat.ltb_spec r (SIZE - 1)); [discriminate|].
  replace (r =? SIZE - 1) with true by lia. discriminate.
Qed.

(** Uniform description: the instruction of rank r at "stage" 0 recv, 1 begin, 2 end, 3 send;
    rank 0 starts at stage 1, the last rank ends after stage 2. *)
Definition off (r : nat) : nat := if r =? 0 then 1 else 0.
Definition top (r : nat) : nat := if r =? SIZE - 1 then 3 else 4.

Lemma prog_at r p : r < SIZE ->
  nth_error (prog r) p =
  if p + off r <? top r then
    match p + off r with
    | 0 => Some (IRecv (r - 1) (r - 1))
    | 1 => Some IBegin
    | 2 => Some IEnd
    | _ => Some (ISend (r + 1) r)
    end
  else None.
Proof.
  intros Hr. specialize (Hprog r Hr). unfold CHAINING in Hprog. unfold off, top.
  destruct (Nat.eqb_spec SIZE 1) as [E|E].
  - injection Hprog as <-. replace r with 0 by lia. subst SIZE. simpl.
    destruct p as [|[|p]]; try reflexivity. destruct p; reflexivity.
  - destruct (Nat.eqb_spec r 0) as [E0|E0].
    + injection Hprog as <-. subst r. replace (0 =? SIZE - 1) with false by lia.
      destruct p as [|[|[|p]]]; try reflexivity. destruct p; reflexivity.
    + destruct (Nat.ltb_spec r (SIZE - 1)) as [E1|E1].
      * injection Hprog as <-. replace (r =? SIZE - 1) with false by lia.
        destruct p as [|[|[|[|p]]]]; try reflexivity.
        rewrite Nat.add_0_r. destruct p; reflexivity.
      * replace (r =? SIZE - 1) with true in * by lia. injection Hprog as <-.
        destruct p as [|[|[|p]]]; try reflexivity. rewrite Nat.add_0_r. destruct p; reflexivity.
Qed.

Lemma prog_len r : r < SIZE -> length (prog r) = top r - off r.
Proof.
  intros Hr. specialize (Hprog r Hr). unfold CHAINING in Hprog. unfold off, top.
  destruct (Nat.eqb_spec SIZE 1) as [E|E].
  - injection Hprog as <-. replace r with 0 by lia. subst SIZE. reflexivity.
  - destruct (Nat.eqb_spec r 0) as [E0|E0].
    + injection Hprog as <-. subst r. replace (0 =? SIZE - 1) with false by lia. reflexivity.
    + destruct (Nat.ltb_spec r (SIZE - 1)) as [E1|E1].
      * injection Hprog as <-. replace (r =? SIZE - 1) with false by lia. reflexivity.
      * replace (r =? SIZE - 1) with true in * by lia. injection Hprog as <-. reflexivity.
Qed.

Definition chron (k : nat) : list event := flat_map (fun r => [Begin r; End_ r]) (seq 0 k).
Definition partial_tr (k st : nat) : list event :=
  match st with 0 | 1 => [] | 2 => [Begin k] | _ => [Begin k; End_ k] end.

Arguments chron _ : simpl never.

Lemma chron_S k : chron (S k) = chron k ++ [Begin k; End_ k].
Proof. unfold chron. rewrite seq_S, flat_map_app. simpl. reflexivity. Qed.

(** k is the active core at stage st *)
Record cinv (c : chain_cfg) (k st : nat) : Prop := {
  ci_k : k < SIZE;
  ci_st : off k <= st <= top k;
  ci_st4 : k < SIZE - 1 -> st < 4;
  ci_lo : forall r, r < k -> ch_pc c r = top r - off r;
  ci_pc : ch_pc c k + off k = st;
  ci_hi : forall r, k < r -> r < SIZE -> ch_pc c r = 0;
  ci_msg : forall s d t, ch_msgs c s d t =
      if (st =? 0) && (s + 1 =? k) && (d =? k) && (t + 1 =? k) then 1 else 0;
  ci_tr : ch_trace c = chron k ++ partial_tr k st
}.

Lemma cinv_init : cinv chain_init 0 1.
Proof.
  constructor; simpl; unfold off, top; try (intros; lia); try reflexivity.
  destruct (0 =? SIZE - 1); simpl; lia.
Qed.

Lemma cinv_step c c' k st : cinv c k st -> chain_step SIZE prog c c' ->
  (cinv c' k (S st)) \/ (st = 3 /\ cinv c' (S k) 0).
Proof.
  intros [Hk Hst Hst4 Hlo Hpc Hhi Hmsg Htr] H.
  (* which core steps *)
  assert (W : forall r i, r < SIZE -> nth_error (prog r) (ch_pc c r) = Some i ->
     (forall s t, i = IRecv s t -> ch_msgs c s r t <> 0) -> r = k).
  { intros r i Hr Hn Hm. rewrite prog_at in Hn by assumption.
    destruct (Nat.lt_trichotomy r k) as [L|[L|L]]; [|assumption|]; exfalso.
    - rewrite Hlo in Hn by assumption. assert (top r - off r + off r = top r).
      { unfold top, off. destruct (r =? SIZE - 1), (r =? 0); lia. }
      rewrite H0 in Hn. rewrite Nat.ltb_irrefl in Hn. discriminate.
    - rewrite Hhi in Hn by assumption. unfold off in Hn. replace (r =? 0) with false in Hn by lia.
      simpl in Hn. destruct (0 <? top r); [|discriminate].
      assert (Ei : i = IRecv (r - 1) (r - 1)) by congruence.
      apply (Hm _ _ Ei). rewrite Hmsg.
      replace (r =? k) with false by lia. rewrite !andb_false_r. reflexivity. }
  destruct H as [r c Hr Hn|r c Hr Hn|r d t c Hr Hn|r s t n c Hr Hn Hm].
  - assert (r = k) by (eapply W; eauto; congruence). subst r.
    rewrite prog_at in Hn by assumption. rewrite Hpc in Hn.
    destruct (Nat.ltb_spec st (top k)) as [Hlt|]; [|discriminate].
    destruct st as [|[|[|st]]]; try discriminate. left. constructor; cbn [ch_pc ch_msgs ch_trace].
    + assumption.
    + lia.
    + intros. lia.
    + intros r Hr'. unfold upd. replace (r =? k) with false by lia. auto.
    + unfold upd. rewrite Nat.eqb_refl. lia.
    + intros r Hr1 Hr2. unfold upd. replace (r =? k) with false by lia. auto.
    + intros. rewrite Hmsg. reflexivity.
    + rewrite Htr. simpl. rewrite app_nil_r. reflexivity.
  - assert (r = k) by (eapply W; eauto; congruence). subst r.
    rewrite prog_at in Hn by assumption. rewrite Hpc in Hn.
    destruct (Nat.ltb_spec st (top k)) as [Hlt|]; [|discriminate].
    destruct st as [|[|[|st]]]; try discriminate. left. constructor; cbn [ch_pc ch_msgs ch_trace].
    + assumption.
    + lia.
    + intros. lia.
    + intros r Hr'. unfold upd. replace (r =? k) with false by lia. auto.
    + unfold upd. rewrite Nat.eqb_refl. lia.
    + intros r Hr1 Hr2. unfold upd. replace (r =? k) with false by lia. auto.
    + intros. rewrite Hmsg. reflexivity.
    + rewrite Htr. simpl. rewrite <- app_assoc. reflexivity.
  - assert (r = k) by (eapply W; eauto; congruence). subst r.
    rewrite prog_at in Hn by assumption. rewrite Hpc in Hn.
    destruct (Nat.ltb_spec st (top k)) as [Hlt|]; [|discriminate].
    destruct st as [|[|[|st]]]; try discriminate.
    assert (Ed : d = k + 1) by congruence. assert (Et : t = k) by congruence. subst d t.
    assert (Hk4 : top k = 4 /\ k < SIZE - 1).
    { unfold top in *. destruct (Nat.eqb_spec k (SIZE - 1)); lia. }
    destruct Hk4 as (T4 & Hk'). assert (st = 0) by lia. subst st.
    right. split; [reflexivity|]. constructor; cbn [ch_pc ch_msgs ch_trace].
    + lia.
    + split; unfold off, top; simpl; lia.
    + intros. lia.
    + intros r Hr'. unfold upd. destruct (Nat.eqb_spec r k).
      * subst. rewrite T4. lia.
      * apply Hlo. lia.
    + unfold upd. replace (S k =? k) with false by lia. rewrite Hhi by lia. reflexivity.
    + intros r Hr1 Hr2. unfold upd. replace (r =? k) with false by lia. apply Hhi; lia.
    + intros s d t. unfold upd3n. rewrite !Hmsg. simpl.
      destruct (Nat.eqb_spec s k), (Nat.eqb_spec d (k + 1)), (Nat.eqb_spec t k); simpl;
      destruct (Nat.eqb_spec (s + 1) (S k)), (Nat.eqb_spec d (S k)), (Nat.eqb_spec (t + 1) (S k)); simpl;
      try lia; reflexivity.
    + rewrite Htr. rewrite chron_S. simpl. rewrite app_nil_r. reflexivity.
  - assert (r = k).
    { eapply W; eauto. intros s' t' E. injection E as <- <-. lia. }
    subst r. rewrite prog_at in Hn by assumption. rewrite Hpc in Hn.
    destruct (Nat.ltb_spec st (top k)) as [Hlt|]; [|discriminate].
    destruct st as [|[|[|st]]]; try discriminate.
    assert (Es : s = k - 1) by congruence. assert (Et : t = k - 1) by congruence. subst s t.
    assert (k <> 0).
    { intros ->. unfold off in Hpc. simpl in Hpc. lia. }
    left. constructor; cbn [ch_pc ch_msgs ch_trace].
    + assumption.
    + unfold off. replace (k =? 0) with false by lia. lia.
    + intros. lia.
    + intros r Hr'. unfold upd. replace (r =? k) with false by lia. auto.
    + unfold upd. rewrite Nat.eqb_refl. lia.
    + intros r Hr1 Hr2. unfold upd. replace (r =? k) with false by lia. auto.
    + intros s d t. unfold upd3n. rewrite Hmsg in *. simpl in *.
      destruct (Nat.eqb_spec s (k - 1)), (Nat.eqb_spec d k), (Nat.eqb_spec t (k - 1)); simpl;
      destruct (Nat.eqb_spec (s + 1) k), (Nat.eqb_spec (t + 1) k); simpl; try lia.
      assert (E : (k - 1 + 1 =? k) && (k =? k) && (k - 1 + 1 =? k) = true) by lia.
      rewrite E in Hm. lia.
    + rewrite Htr. reflexivity.
Qed.

Lemma cinv_reach c : star (chain_step SIZE prog) chain_init c -> exists k st, cinv c k st.
Proof.
  intros H. remember chain_init as i eqn:E. induction H as [|a b c H IH Hs]; subst.
  - exists 0, 1. apply cinv_init.
  - destruct (IH eq_refl) as (k & st & I). destruct (cinv_step _ _ _ _ I Hs) as [J|[_ J]]; eauto.
Qed.

Lemma chain_progress c k st : cinv c k st ->
  chain_done SIZE prog c \/ exists c', chain_step SIZE prog c c'.
Proof.
  intros [Hk Hst Hst4 Hlo Hpc Hhi Hmsg Htr].
  destruct (Nat.lt_ge_cases st (top k)) as [L|L].
  - right. pose proof (prog_at k (ch_pc c k) Hk) as Hn. rewrite Hpc in Hn.
    replace (st <? top k) with true in Hn by lia.
    destruct st as [|[|[|st]]].
    + assert (k <> 0).
      { intros ->. unfold off in Hpc. simpl in Hpc. lia. }
      eexists. eapply cs_recv with (r := k) (n := 0); [assumption|exact Hn|].
      rewrite Hmsg. replace (k - 1 + 1 =? k) with true by lia. rewrite !Nat.eqb_refl. reflexivity.
    + eexists. eapply cs_begin; eassumption.
    + eexists. eapply cs_end; eassumption.
    + eexists. eapply cs_send; eassumption.
  - left. assert (K : k = SIZE - 1).
    { unfold top in L. destruct (Nat.eqb_spec k (SIZE - 1)); [assumption|].
      specialize (Hst4 ltac:(lia)). lia. }
    intros r Hr. rewrite prog_len by assumption.
    destruct (Nat.eq_dec r k) as [->|N]; [lia|]. apply Hlo. lia.
Qed.

Lemma chain_trace_prefix c k st : cinv c k st -> exists rest, chron SIZE = ch_trace c ++ rest.
Proof.
  intros [Hk Hst Hst4 Hlo Hpc Hhi Hmsg Htr]. rewrite Htr.
  assert (P : exists u, [Begin k; End_ k] = partial_tr k st ++ u).
  { destruct st as [|[|[|st]]]; simpl; eexists; reflexivity. }
  destruct P as (u & P).
  assert (Q : exists w, chron SIZE = chron (S k) ++ w).
  { exists (flat_map (fun r => [Begin r; End_ r]) (seq (S k) (SIZE - S k))).
    unfold chron. rewrite <- flat_map_app. f_equal. rewrite <- seq_app. f_equal. lia. }
  destruct Q as (w & Q). exists (u ++ w). rewrite Q, chron_S, P, !app_assoc. reflexivity.
Qed.

Lemma chain_final_trace c k st : cinv c k st -> chain_done SIZE prog c -> ch_trace c = chron SIZE.
Proof.
  intros I F. destruct I as [Hk Hst Hst4 Hlo Hpc Hhi Hmsg Htr].
  assert (K : k = SIZE - 1).
  { destruct (Nat.eq_dec k (SIZE - 1)); [assumption|]. exfalso.
    assert (ch_pc c (SIZE - 1) = 0) by (apply Hhi; lia).
    specialize (F (SIZE - 1) ltac:(lia)). rewrite prog_len in F by lia.
    unfold top, off in F. rewrite Nat.eqb_refl in F. destruct (SIZE - 1 =? 0); lia. }
  assert (st = 3).
  { specialize (F k Hk). rewrite prog_len in F by assumption.
    unfold top, off in *. rewrite K, Nat.eqb_refl in *. destruct (SIZE - 1 =? 0); lia. }
  rewrite Htr, H. change (partial_tr k 3) with [Begin k; End_ k]. rewrite <- chron_S. f_equal. lia.
Qed.

Lemma chain_measure c c' k st : cinv c k st -> chain_step SIZE prog c c' ->
  exists k' st', cinv c' k' st' /\ 4 * k' + st' = 4 * k + st + 1.
Proof.
  intros I H. destruct (cinv_step _ _ _ _ I H) as [J|[-> J]].
  - exists k, (S st). split; [assumption|lia].
  - exists (S k), 0. split; [assumption|lia].
Qed.

Lemma chain_len_bound c n : nsteps (chain_step SIZE prog) n chain_init c ->
  exists k st, cinv c k st /\ 4 * k + st = n + 1.
Proof.
  intros H. remember chain_init as i eqn:E. induction H as [|n a b c H IH Hs]; subst.
  - exists 0, 1. split; [apply cinv_init|lia].
  - destruct (IH eq_refl) as (k & st & I & En).
    destruct (chain_measure _ _ _ _ I Hs) as (k' & st' & J & En').
    exists k', st'. split; [assumption|lia].
Qed.

Lemma chain_bound c n : nsteps (chain_step SIZE prog) n chain_init c -> n <= 4 * SIZE.
Proof.
  intros H. apply chain_len_bound in H. destruct H as (k & st & I & E).
  destruct I as [Hk Hst _ _ _ _ _ _]. unfold top in Hst.
  destruct (Nat.eqb_spec k (SIZE - 1)); lia.
Qed.
End Chain.

(** * DISPATCHING *)
Section Disp.
Variable D : Type.
Variable eqb : D -> D -> bool.
Variable stop : D.
Variable SIZE : nat.
Hypothesis HS : 3 <= SIZE.
Variable tasks0 : list D.
Hypothesis Hns : forall t, In t tasks0 -> eqb t stop = false.
Hypothesis Hstop : eqb stop stop = true.

Notation disp := (disp D).
Notation dstep := (dstep D eqb stop SIZE).
Notation init := (d_init D SIZE tasks0).

(** tasks a slave holds or has executed *)
Definition working (s : sphase D) : list D := match s with SWork _ d => [d] | _ => [] end.
Definition held (c : disp) (i : nat) : list D :=
  d_pool D c i ++ working (d_slave D c i) ++ filter (fun d => negb (eqb d stop)) (d_m2s D c i).

(** Local states of slave i. *)
Definition idle (c : disp) (i : nat) : Prop :=
  d_slave D c i = SWait D /\ d_m2s D c i = [] /\ d_s2m D c i = [].
Definition busy (c : disp) (i : nat) : Prop :=
  (exists t, d_slave D c i = SWait D /\ d_m2s D c i = [t] /\ eqb t stop = false /\ d_s2m D c i = []) \/
  (exists t, d_slave D c i = SWork D t /\ d_m2s D c i = [] /\ d_s2m D c i = []) \/
  (d_slave D c i = SReply D /\ d_m2s D c i = [] /\ d_s2m D c i = []) \/
  (d_slave D c i = SWait D /\ d_m2s D c i = [] /\ d_s2m D c i = [i]).
Definition stopped (c : disp) (i : nat) : Prop :=
  d_s2m D c i = [] /\
  ((d_slave D c i = SWait D /\ d_m2s D c i = [stop]) \/ (d_slave D c i = SBarrier D /\ d_m2s D c i = [])).

Definition slave_ok (c : disp) (i : nat) : Prop :=
  match d_phase D c with
  | MLoop | MWait _ => if nth i (d_status D c) false then idle c i else busy c i
  | MStop j => nth i (d_status D c) false = true /\ if i <? j then stopped c i else idle c i
  | MBarrier => nth i (d_status D c) false = true /\ stopped c i
  | MCrash => False
  end.

Definition slaves : list nat := seq 1 (SIZE - 1).

Record dinv (c : disp) : Prop := {
  di_len : length (d_status D c) = SIZE;
  di_0 : nth 0 (d_status D c) false = false;
  di_sl : forall i, 1 <= i < SIZE -> slave_ok c i;
  di_ph : match d_phase D c with
          | MLoop => True
          | MWait j => 1 <= j <= SIZE /\ d_tasks D c = [] /\
                       forall i, 1 <= i < j -> nth i (d_status D c) false = true
          | MStop j => 1 <= j <= SIZE /\ d_tasks D c = []
          | MBarrier => d_tasks D c = []
          | MCrash => False
          end;
  di_perm : Permutation (concat (map (held c) slaves) ++ d_tasks D c) tasks0
}.

Lemma in_slaves i : In i slaves <-> 1 <= i < SIZE.
Proof. unfold slaves. rewrite in_seq. lia. Qed.

Lemma NoDup_slaves : NoDup slaves.
Proof. apply seq_NoDup. Qed.

Lemma slaves_split k : 1 <= k < SIZE -> exists l1 l2, slaves = l1 ++ k :: l2 /\ ~ In k l1 /\ ~ In k l2.
Proof.
  intros H. assert (I : In k slaves) by (apply in_slaves; assumption).
  apply in_split in I. destruct I as (l1 & l2 & E). exists l1, l2. split; [assumption|].
  pose proof NoDup_slaves as N. rewrite E in N. apply NoDup_remove_2 in N.
  split; intros HH; apply N; apply in_or_app; auto.
Qed.

Lemma held_change c c' k : 1 <= k < SIZE -> (forall i, i <> k -> held c' i = held c i) ->
  exists A, Permutation (concat (map (held c) slaves)) (A ++ held c k) /\
            Permutation (concat (map (held c') slaves)) (A ++ held c' k).
Proof.
  intros Hk Hne. destruct (slaves_split k Hk) as (l1 & l2 & E & N1 & N2).
  exists (concat (map (held c) l1) ++ concat (map (held c) l2)).
  rewrite E, !map_app, !concat_app. simpl.
  assert (M1 : map (held c') l1 = map (held c) l1).
  { apply map_ext_in. intros a Ha. apply Hne. intros ->. contradiction. }
  assert (M2 : map (held c') l2 = map (held c) l2).
  { apply map_ext_in. intros a Ha. apply Hne. intros ->. contradiction. }
  rewrite M1, M2. split.
  - rewrite <- app_assoc. apply Permutation_app_head. apply Permutation_app_comm.
  - rewrite <- app_assoc. apply Permutation_app_head. apply Permutation_app_comm.
Qed.

Lemma held_same c c' : (forall i, held c' i = held c i) ->
  concat (map (held c') slaves) = concat (map (held c) slaves).
Proof. intros H. f_equal. apply map_ext. assumption. Qed.

Lemma nth_repeat_true n i : nth i (repeat true n) false = (i <? n).
Proof. revert i. induction n; destruct i; simpl; auto. rewrite IHn. reflexivity. Qed.

Lemma dinv_init : dinv init.
Proof.
  constructor; simpl.
  - rewrite repeat_length. lia.
  - reflexivity.
  - intros i Hi. unfold slave_ok. cbn [d_phase d_init d_status].
    destruct i as [|i]; [lia|]. simpl nth. rewrite nth_repeat_true.
    replace (i <? SIZE - 1) with true by lia. unfold idle. simpl. auto.
  - exact I.
  - assert (E : concat (map (held init) slaves) = []).
    { induction slaves; simpl; auto. }
    rewrite E. apply Permutation_refl.
Qed.

(** no task in the lists equals the stop message *)
Lemma task_ns c t : dinv c -> In t (d_tasks D c) -> eqb t stop = false.
Proof.
  intros I H. apply Hns. eapply Permutation_in; [apply (di_perm c I)|]. apply in_or_app. auto.
Qed.

Lemma held_ns c t i : dinv c -> 1 <= i < SIZE -> In t (held c i) -> eqb t stop = false.
Proof.
  intros I Hi H. apply Hns. eapply Permutation_in; [apply (di_perm c I)|]. apply in_or_app. left.
  apply in_concat. exists (held c i). split; [|assumption]. apply in_map. apply in_slaves. assumption.
Qed.

Ltac dsimp := unfold slave_ok, idle, busy, stopped in *; cbn [d_phase d_tasks d_status d_slave d_m2s d_s2m d_pool set_phase] in *.

Lemma upd_eq {B} (f : nat -> B) x y : upd f x y x = y.
Proof. unfold upd. rewrite Nat.eqb_refl. reflexivity. Qed.
Lemma upd_neq {B} (f : nat -> B) x y z : z <> x -> upd f x y z = f z.
Proof. intros H. unfold upd. replace (z =? x) with false by lia. reflexivity. Qed.

Lemma status_0 c k : dinv c -> nth k (d_status D c) false = true -> k < length (d_status D c) -> 1 <= k < SIZE.
Proof.
  intros I H Hk. rewrite (di_len c I) in Hk. destruct k; [|lia].
  rewrite (di_0 c I) in H. discriminate.
Qed.

Lemma dinv_step c c' : dinv c -> dstep c c' -> dinv c'.
Proof.
  intros I H. pose proof I as I0. destruct I as [Il I00 Isl Iph Ipm].
  destruct H as
   [c t ts k Hp Ht Hi | c t ts i x rest Hp Ht Hi Hir Hm | c Hp Ht | c i Hp Hi Hst | c i x rest Hp Hi Hst Hm
   | c Hp | c i Hp Hi Hst | c i Hp Hi Hst | c Hp | c i d rest Hi Hs Hm | c i d Hi Hs | c i Hi Hs].
  - (* send a task *)
    apply index_true_Some in Hi. destruct Hi as (Hk1 & Hk2 & _).
    assert (Hk : 1 <= k < SIZE) by (eapply status_0; eauto).
    assert (Ns : eqb t stop = false). { apply (task_ns c); auto. rewrite Ht. left. reflexivity. }
    assert (Idk := Isl k Hk). unfold slave_ok in Idk. rewrite Hp, Hk2 in Idk.
    destruct Idk as (Ek1 & Ek2 & Ek3).
    constructor; dsimp.
    + rewrite length_update. assumption.
    + rewrite nth_update_neq by lia. assumption.
    + intros i Hi. destruct (Nat.eq_dec i k) as [->|N].
      * rewrite nth_update_eq by lia. left. exists t. rewrite upd_eq, Ek2. simpl. auto.
      * rewrite nth_update_neq by auto. rewrite upd_neq by auto. specialize (Isl i Hi). dsimp.
        rewrite Hp in Isl. assumption.
    + exact Logic.I.
    + edestruct (held_change c (mkD D MLoop ts (update (d_status D c) k false) (d_slave D c)
                   (upd (d_m2s D c) k (d_m2s D c k ++ [t])) (d_s2m D c) (d_pool D c)) k Hk) as (A & P1 & P2).
      { intros i Ni. unfold held. dsimp. rewrite upd_neq by auto. reflexivity. }
      unfold held in P1 at 2, P2 at 2. dsimp. rewrite P2. rewrite upd_eq, Ek2. simpl. rewrite Ns. simpl.
      rewrite Ht in Ipm. rewrite P1 in Ipm. rewrite Ek2 in Ipm. simpl in Ipm. rewrite app_nil_r in Ipm.
      rewrite <- Ipm. rewrite <- !app_assoc. simpl. reflexivity.
  - (* receive from any source *)
    assert (Idi := Isl i Hir). unfold slave_ok in Idi. rewrite Hp in Idi.
    assert (Nf : nth i (d_status D c) false = false) by (apply index_true_None; assumption).
    rewrite Nf in Idi. 
    assert (Ei : x = i /\ rest = [] /\ d_slave D c i = SWait D /\ d_m2s D c i = []).
    { unfold busy in Idi. destruct Idi as [(t' & ? & ? & ? & ?)|[(t' & ? & ? & ?)|[(? & ? & ?)|(? & ? & ?)]]]; try congruence.
      rewrite H1 in Hm. injection Hm as <- <-. auto. }
    destruct Ei as (-> & -> & Es & Em).
    constructor; dsimp.
    + rewrite length_update. assumption.
    + rewrite nth_update_neq by lia. assumption.
    + intros j Hj. destruct (Nat.eq_dec j i) as [->|N].
      * rewrite nth_update_eq by lia. rewrite upd_eq. auto.
      * rewrite nth_update_neq by auto. rewrite upd_neq by auto. specialize (Isl j Hj). dsimp.
        rewrite Hp in Isl. assumption.
    + exact Logic.I.
    + assumption.
  - (* loop end *)
    constructor; dsimp; auto.
    + intros i Hi. specialize (Isl i Hi). dsimp. rewrite Hp in Isl. assumption.
    + split; [lia|]. split; [assumption|]. intros. lia.
  - (* wait: free *)
    rewrite Hp in Iph. destruct Iph as (Hr & Ht & Hall).
    constructor; dsimp; auto.
    + intros j Hj. specialize (Isl j Hj). dsimp. rewrite Hp in Isl. assumption.
    + split; [lia|]. split; [assumption|]. intros j Hj.
      destruct (Nat.eq_dec j i) as [->|N]; [assumption|]. apply Hall. lia.
  - (* wait: busy *)
    rewrite Hp in Iph. destruct Iph as (Hr & Ht & Hall).
    assert (Hir : 1 <= i < SIZE) by lia.
    assert (Idi := Isl i Hir). unfold slave_ok in Idi. rewrite Hp, Hst in Idi.
    assert (Ei : x = i /\ rest = [] /\ d_slave D c i = SWait D /\ d_m2s D c i = []).
    { unfold busy in Idi. destruct Idi as [(t' & ? & ? & ? & ?)|[(t' & ? & ? & ?)|[(? & ? & ?)|(? & ? & ?)]]]; try congruence.
      rewrite H1 in Hm. injection Hm as <- <-. auto. }
    destruct Ei as (-> & -> & Es & Em). rewrite Nat.eqb_refl.
    constructor; dsimp.
    + rewrite length_update. assumption.
    + rewrite nth_update_neq by lia. assumption.
    + intros j Hj. destruct (Nat.eq_dec j i) as [->|N].
      * rewrite nth_update_eq by lia. rewrite upd_eq. auto.
      * rewrite nth_update_neq by auto. rewrite upd_neq by auto. specialize (Isl j Hj). dsimp.
        rewrite Hp in Isl. assumption.
    + split; [lia|]. split; [assumption|]. intros j Hj.
      destruct (Nat.eq_dec j i) as [->|N]; [rewrite nth_update_eq by lia; reflexivity|].
      rewrite nth_update_neq by auto. apply Hall. lia.
    + assumption.
  - (* wait end *)
    rewrite Hp in Iph. destruct Iph as (Hr & Ht & Hall).
    constructor; dsimp; auto.
    + intros i Hi. specialize (Isl i Hi). dsimp. rewrite Hp in Isl. rewrite Hall in Isl by assumption.
      split; [apply Hall; assumption|]. replace (i <? 1) with false by lia. assumption.
    + split; [lia|assumption].
  - (* send stop *)
    rewrite Hp in Iph. destruct Iph as (Hr & Ht).
    assert (Hir : 1 <= i < SIZE) by lia.
    assert (Idi := Isl i Hir). unfold slave_ok in Idi. rewrite Hp in Idi.
    replace (i <? i) with false in Idi by lia. destruct Idi as (_ & E1 & E2 & E3).
    constructor; dsimp; auto.
    + intros j Hj. specialize (Isl j Hj). dsimp. rewrite Hp in Isl. destruct Isl as (Sj & Isl).
      split; [assumption|].
      destruct (Nat.eq_dec j i) as [->|N].
      * replace (i <? S i) with true by lia. rewrite upd_eq. rewrite E2. simpl. auto.
      * rewrite upd_neq by auto. destruct (Nat.ltb_spec j i); destruct (Nat.ltb_spec j (S i)); try lia; assumption.
    + split; [lia|assumption].
    + rewrite (held_same c); [assumption|]. intros j. unfold held. dsimp.
      destruct (Nat.eq_dec j i) as [->|N]; [|rewrite upd_neq by auto; reflexivity].
      rewrite upd_eq, E2. simpl. rewrite Hstop. reflexivity.
  - (* crash: excluded *)
    exfalso. rewrite Hp in Iph.
    assert (Idi := Isl i ltac:(lia)). unfold slave_ok in Idi. rewrite Hp in Idi. destruct Idi. congruence.
  - (* stop end *)
    rewrite Hp in Iph. destruct Iph as (Hr & Ht).
    constructor; dsimp; auto.
    intros j Hj. specialize (Isl j Hj). dsimp. rewrite Hp in Isl.
    replace (j <? SIZE) with true in Isl by lia. assumption.
  - (* slave receives *)
    assert (Idi := Isl i Hi).
    assert (K : (eqb d stop = false /\ rest = [] /\ d_s2m D c i = [] /\
                 nth i (d_status D c) false = false /\ (d_phase D c = MLoop \/ exists j, d_phase D c = MWait j)) \/
                (d = stop /\ rest = [] /\ d_s2m D c i = [] /\ nth i (d_status D c) false = true /\
                 (d_phase D c = MBarrier \/ exists j, d_phase D c = MStop j /\ i < j))).
    { unfold slave_ok in Idi. destruct (d_phase D c) eqn:Ep.
      - destruct (nth i (d_status D c) false) eqn:En.
        + unfold idle in Idi. destruct Idi as (? & ? & ?). congruence.
        + unfold busy in Idi. destruct Idi as [(t' & ? & ? & ? & ?)|[(t' & ? & ? & ?)|[(? & ? & ?)|(? & ? & ?)]]]; try congruence.
          rewrite H0 in Hm. injection Hm as <- <-. left. auto 10.
      - destruct (nth i (d_status D c) false) eqn:En.
        + unfold idle in Idi. destruct Idi as (? & ? & ?). congruence.
        + unfold busy in Idi. destruct Idi as [(t' & ? & ? & ? & ?)|[(t' & ? & ? & ?)|[(? & ? & ?)|(? & ? & ?)]]]; try congruence.
          rewrite H0 in Hm. injection Hm as <- <-. left. repeat split; auto. right. eexists; reflexivity.
      - destruct Idi as (Sj & Idi). destruct (Nat.ltb_spec i i0).
        + unfold stopped in Idi. destruct Idi as (? & [(? & ?)|(? & ?)]); [|congruence].
          rewrite H2 in Hm. injection Hm as <- <-. right. repeat split; auto. right. exists i0. auto.
        + unfold idle in Idi. destruct Idi as (? & ? & ?). congruence.
      - destruct Idi as (Sj & Idi). unfold stopped in Idi. destruct Idi as (? & [(? & ?)|(? & ?)]); [|congruence].
          rewrite H1 in Hm. injection Hm as <- <-. right. auto 10.
      - contradiction. }
    constructor; dsimp.
    + assumption.
    + assumption.
    + intros j Hj. specialize (Isl j Hj). dsimp.
      destruct (Nat.eq_dec j i) as [->|N].
      * rewrite !upd_eq. destruct K as [(K1 & K2 & K3 & K4 & K5)|(K1 & K2 & K3 & K4 & K5)].
        -- rewrite K1, K2, K4 in *. destruct K5 as [->|(j & ->)]; right; left; exists d; auto.
        -- subst d. rewrite Hstop, K2, K4. destruct K5 as [->|(j & -> & Hj')].
           ++ auto 10.
           ++ replace (i <? j) with true by lia. auto 10.
      * rewrite !upd_neq by auto. assumption.
    + assumption.
    + edestruct (held_change c (mkD D (d_phase D c) (d_tasks D c) (d_status D c)
                   (upd (d_slave D c) i (if eqb d stop then SBarrier D else SWork D d))
                   (upd (d_m2s D c) i rest) (d_s2m D c) (d_pool D c)) i Hi) as (A & P1 & P2).
      { intros j Nj. unfold held. dsimp. rewrite !upd_neq by auto. reflexivity. }
      unfold held in P1 at 2, P2 at 2. dsimp. rewrite P2. rewrite !upd_eq.
      rewrite <- Ipm. apply Permutation_app_tail. rewrite P1. rewrite Hs, Hm. simpl.
      destruct K as [(K1 & K2 & K3 & K4 & K5)|(K1 & K2 & K3 & K4 & K5)].
      * rewrite K1, K2. simpl. reflexivity.
      * subst d. rewrite Hstop, K2. simpl. reflexivity.
  - (* slave works *)
    assert (Idi := Isl i Hi).
    assert (K : d_m2s D c i = [] /\ d_s2m D c i = [] /\ nth i (d_status D c) false = false /\
                (d_phase D c = MLoop \/ exists j, d_phase D c = MWait j)).
    { unfold slave_ok in Idi. destruct (d_phase D c) eqn:Ep.
      - destruct (nth i (d_status D c) false) eqn:En.
        + unfold idle in Idi. destruct Idi as (? & ? & ?). congruence.
        + unfold busy in Idi. destruct Idi as [(t' & ? & ? & ? & ?)|[(t' & ? & ? & ?)|[(? & ? & ?)|(? & ? & ?)]]]; try congruence. auto.
      - destruct (nth i (d_status D c) false) eqn:En.
        + unfold idle in Idi. destruct Idi as (? & ? & ?). congruence.
        + unfold busy in Idi. destruct Idi as [(t' & ? & ? & ? & ?)|[(t' & ? & ? & ?)|[(? & ? & ?)|(? & ? & ?)]]]; try congruence.
          repeat split; auto. right. eexists; reflexivity.
      - destruct Idi as (Sj & Idi). destruct (Nat.ltb_spec i i0).
        + unfold stopped in Idi. destruct Idi as (? & [(? & ?)|(? & ?)]); congruence.
        + unfold idle in Idi. destruct Idi as (? & ? & ?). congruence.
      - destruct Idi as (Sj & Idi). unfold stopped in Idi. destruct Idi as (? & [(? & ?)|(? & ?)]); congruence.
      - contradiction. }
    destruct K as (K1 & K2 & K3 & K4).
    constructor; dsimp.
    + assumption.
    + assumption.
    + intros j Hj. specialize (Isl j Hj). dsimp.
      destruct (Nat.eq_dec j i) as [->|N].
      * rewrite !upd_eq. rewrite K3 in *. destruct K4 as [->|(j & ->)]; right; right; left; auto.
      * rewrite !upd_neq by auto. assumption.
    + assumption.
    + edestruct (held_change c (mkD D (d_phase D c) (d_tasks D c) (d_status D c) (upd (d_slave D c) i (SReply D))
                   (d_m2s D c) (d_s2m D c) (upd (d_pool D c) i (d_pool D c i ++ [d]))) i Hi) as (A & P1 & P2).
      { intros j Nj. unfold held. dsimp. rewrite !upd_neq by auto. reflexivity. }
      unfold held in P1 at 2, P2 at 2. dsimp. rewrite P2. rewrite !upd_eq.
      rewrite <- Ipm. apply Permutation_app_tail. rewrite P1. rewrite Hs, K1. simpl. rewrite app_nil_r. reflexivity.
  - (* slave replies *)
    assert (Idi := Isl i Hi).
    assert (K : d_m2s D c i = [] /\ d_s2m D c i = [] /\ nth i (d_status D c) false = false /\
                (d_phase D c = MLoop \/ exists j, d_phase D c = MWait j)).
    { unfold slave_ok in Idi. destruct (d_phase D c) eqn:Ep.
      - destruct (nth i (d_status D c) false) eqn:En.
        + unfold idle in Idi. destruct Idi as (? & ? & ?). congruence.
        + unfold busy in Idi. destruct Idi as [(t' & ? & ? & ? & ?)|[(t' & ? & ? & ?)|[(? & ? & ?)|(? & ? & ?)]]]; try congruence. auto.
      - destruct (nth i (d_status D c) false) eqn:En.
        + unfold idle in Idi. destruct Idi as (? & ? & ?). congruence.
        + unfold busy in Idi. destruct Idi as [(t' & ? & ? & ? & ?)|[(t' & ? & ? & ?)|[(? & ? & ?)|(? & ? & ?)]]]; try congruence.
          repeat split; auto. right. eexists; reflexivity.
      - destruct Idi as (Sj & Idi). destruct (Nat.ltb_spec i i0).
        + unfold stopped in Idi. destruct Idi as (? & [(? & ?)|(? & ?)]); congruence.
        + unfold idle in Idi. destruct Idi as (? & ? & ?). congruence.
      - destruct Idi as (Sj & Idi). unfold stopped in Idi. destruct Idi as (? & [(? & ?)|(? & ?)]); congruence.
      - contradiction. }
    destruct K as (K1 & K2 & K3 & K4).
    constructor; dsimp.
    + assumption.
    + assumption.
    + intros j Hj. specialize (Isl j Hj). dsimp.
      destruct (Nat.eq_dec j i) as [->|N].
      * rewrite !upd_eq. rewrite K3, K2 in *. destruct K4 as [->|(j & ->)]; right; right; right; auto.
      * rewrite !upd_neq by auto. assumption.
    + assumption.
    + rewrite (held_same c); [assumption|]. intros j. unfold held. dsimp.
      destruct (Nat.eq_dec j i) as [->|N]; [|rewrite upd_neq by auto; reflexivity].
      rewrite upd_eq, Hs. reflexivity.
Qed.

Lemma dinv_reach c : star dstep init c -> dinv c.
Proof.
  intros H. remember init as i eqn:E. induction H; subst.
  - apply dinv_init.
  - eapply dinv_step; eauto.
Qed.

(** a busy slave can always make the system move *)
Lemma busy_moves c i : 1 <= i < SIZE -> busy c i ->
  (exists c', dstep c c') \/ d_s2m D c i = [i].
Proof.
  intros Hi B. destruct B as [(t' & ? & ? & ? & ?)|[(t' & ? & ? & ?)|[(? & ? & ?)|(? & ? & ?)]]].
  - left. eexists. eapply d_recv; eassumption.
  - left. eexists. eapply d_work; eassumption.
  - left. eexists. eapply d_reply; eassumption.
  - right. assumption.
Qed.

Lemma disp_progress c : dinv c -> d_final D SIZE c \/ exists c', dstep c c'.
Proof.
  intros I. pose proof (di_sl c I) as Isl. pose proof (di_ph c I) as Iph.
  destruct (d_phase D c) eqn:Ep.
  - right. destruct (d_tasks D c) as [|t ts] eqn:Et.
    + eexists. eapply d_loop_end; eassumption.
    + destruct (index_true (d_status D c)) as [k|] eqn:Ei.
      * eexists. eapply d_send; eassumption.
      * assert (S1 := Isl 1 ltac:(lia)). unfold slave_ok in S1. rewrite Ep in S1.
        pose proof (proj1 (index_true_None _) Ei 1) as N1. rewrite N1 in S1.
        destruct (busy_moves c 1 ltac:(lia) S1) as [H|H]; [assumption|].
        eexists. eapply d_any with (i := 1); try eassumption. lia.
  - right. destruct Iph as (Hr & Ht & Hall).
    destruct (Nat.eq_dec i SIZE) as [->|N].
    + eexists. eapply d_wait_end; eassumption.
    + destruct (nth i (d_status D c) false) eqn:En.
      * eexists. eapply d_wait_free; eauto. lia.
      * assert (S1 := Isl i ltac:(lia)). unfold slave_ok in S1. rewrite Ep, En in S1.
        destruct (busy_moves c i ltac:(lia) S1) as [H|H]; [assumption|].
        eexists. eapply d_wait_busy; eauto. lia.
  - right. destruct Iph as (Hr & Ht).
    destruct (Nat.eq_dec i SIZE) as [->|N].
    + eexists. eapply d_stop_end; eassumption.
    + assert (S1 := Isl i ltac:(lia)). unfold slave_ok in S1. rewrite Ep in S1. destruct S1 as (S1 & _).
      eexists. eapply d_stop; eauto. lia.
  - assert (Dn : forall n, n <= SIZE -> (forall i, 1 <= i < n -> d_slave D c i = SBarrier D) \/
                 exists i, 1 <= i < n /\ d_slave D c i = SWait D /\ d_m2s D c i = [stop]).
    { induction n as [|n IH]; intros Hn.
      - left. intros. lia.
      - destruct (IH ltac:(lia)) as [H|(i & Hi & H)].
        + destruct (Nat.eq_dec n 0) as [->|Nn]; [left; intros; lia|].
          assert (S1 := Isl n ltac:(lia)). unfold slave_ok in S1. rewrite Ep in S1.
          destruct S1 as (_ & _ & [(E1 & E2)|(E1 & E2)]).
          * right. exists n. split; [lia|]. auto.
          * left. intros i Hi. destruct (Nat.eq_dec i n) as [->|]; [assumption|]. apply H. lia.
        + right. exists i. split; [lia|assumption]. }
    destruct (Dn SIZE ltac:(lia)) as [H|(i & Hi & H1 & H2)].
    + left. split; assumption.
    + right. eexists. eapply d_recv; eassumption.
  - contradiction.
Qed.

Lemma disp_final_perm c : dinv c -> d_final D SIZE c ->
  Permutation (concat (map (d_pool D c) slaves)) tasks0.
Proof.
  intros I (Fp & Fs). pose proof (di_perm c I) as P. pose proof (di_ph c I) as Iph. rewrite Fp in Iph.
  rewrite Iph, app_nil_r in P. rewrite <- P.
  assert (E : map (held c) slaves = map (d_pool D c) slaves).
  { apply map_ext_in. intros i Hi. apply in_slaves in Hi. unfold held. rewrite Fs by assumption. simpl.
    pose proof (di_sl c I i Hi) as S1. unfold slave_ok in S1. rewrite Fp in S1.
    destruct S1 as (_ & _ & [(E1 & E2)|(E1 & E2)]).
    - rewrite Fs in E1 by assumption. discriminate.
    - rewrite E2. simpl. apply app_nil_r. }
  rewrite E. reflexivity.
Qed.

(** termination measure *)
Definition msgw (d : D) : nat := if eqb d stop then 1 else 4.
Definition slavew (c : disp) (i : nat) : nat :=
  sum (map msgw (d_m2s D c i)) +
  match d_slave D c i with SWait _ => 0 | SWork _ _ => 3 | SReply _ => 2 | SBarrier _ => 0 end +
  length (d_s2m D c i).
Definition phasew (p : mphase) : nat :=
  match p with
  | MLoop => 3 * SIZE + 10
  | MWait i => (SIZE - i) + 2 * SIZE + 5
  | MStop i => 2 * (SIZE - i) + 2
  | MBarrier => 1
  | MCrash => 0
  end.
Definition dwork (c : disp) : nat :=
  5 * length (d_tasks D c) + sum (map (slavew c) slaves) + phasew (d_phase D c).

Lemma slavew_change c c' k : 1 <= k < SIZE -> (forall i, i <> k -> slavew c' i = slavew c i) ->
  exists A, sum (map (slavew c) slaves) = A + slavew c k /\ sum (map (slavew c') slaves) = A + slavew c' k.
Proof.
  intros Hk Hne. destruct (slaves_split k Hk) as (l1 & l2 & E & N1 & N2).
  exists (sum (map (slavew c) l1) + sum (map (slavew c) l2)).
  rewrite E, !map_app, !sum_app. simpl.
  assert (M1 : map (slavew c') l1 = map (slavew c) l1).
  { apply map_ext_in. intros a Ha. apply Hne. intros ->. contradiction. }
  assert (M2 : map (slavew c') l2 = map (slavew c) l2).
  { apply map_ext_in. intros a Ha. apply Hne. intros ->. contradiction. }
  rewrite M1, M2. lia.
Qed.

Ltac wsimp := unfold slavew in *; cbn [d_phase d_tasks d_status d_slave d_m2s d_s2m d_pool set_phase] in *.

Lemma dwork_decreases c c' : dinv c -> dstep c c' -> dwork c' < dwork c.
Proof.
  intros I H. unfold dwork.
  pose proof (fun k => slavew_change c c' k) as CH. pose proof (di_ph c I) as Iph.
  destruct H as
   [c t ts k Hp Ht Hi | c t ts i x rest Hp Ht Hi Hir Hm | c Hp Ht | c i Hp Hi Hst | c i x rest Hp Hi Hst Hm
   | c Hp | c i Hp Hi Hst | c i Hp Hi Hst | c Hp | c i d rest Hi Hs Hm | c i d Hi Hs | c i Hi Hs].
  - apply index_true_Some in Hi. destruct Hi as (Hk1 & Hk2 & _).
    assert (Hk : 1 <= k < SIZE) by (eapply status_0; eauto).
    assert (Ns : eqb t stop = false). { apply (task_ns c); auto. rewrite Ht. left. reflexivity. }
    destruct (CH k Hk) as (A & E1 & E2).
    { intros i Ni. wsimp. rewrite upd_neq by auto. reflexivity. }
    rewrite E1, E2. wsimp. rewrite upd_eq, map_app, sum_app, Ht. simpl. unfold msgw at 2. rewrite Ns. rewrite Hp. simpl. lia.
  - destruct (CH i Hir) as (A & E1 & E2).
    { intros j Nj. wsimp. rewrite upd_neq by auto. reflexivity. }
    rewrite E1, E2. wsimp. rewrite upd_eq, Hm, Hp. simpl. lia.
  - change (map (slavew (set_phase D c (MWait 1))) slaves) with (map (slavew c) slaves). simpl. rewrite Hp. simpl. lia.
  - change (map (slavew (set_phase D c (MWait (S i)))) slaves) with (map (slavew c) slaves). cbn [set_phase d_phase d_tasks phasew]. rewrite Hp. cbn [phasew]. lia.
  - rewrite Hp in Iph. destruct (CH i ltac:(lia)) as (A & E1 & E2).
    { intros j Nj. wsimp. rewrite upd_neq by auto. reflexivity. }
    rewrite E1, E2. wsimp. rewrite upd_eq, Hm, Hp. destruct (x =? i); cbn [phasew length]; lia.
  - change (map (slavew (set_phase D c (MStop 1))) slaves) with (map (slavew c) slaves). cbn [set_phase d_phase d_tasks phasew]. rewrite Hp. cbn [phasew]. lia.
  - rewrite Hp in Iph. destruct (CH i ltac:(lia)) as (A & E1 & E2).
    { intros j Nj. wsimp. rewrite upd_neq by auto. reflexivity. }
    rewrite E1, E2. wsimp. rewrite upd_eq, map_app, sum_app, Hp. cbn [phasew map].
    assert (W : sum [msgw stop] = 1) by (unfold sum, msgw; simpl; rewrite Hstop; reflexivity). rewrite W. lia.
  - change (map (slavew (set_phase D c MCrash)) slaves) with (map (slavew c) slaves). cbn [set_phase d_phase d_tasks phasew]. rewrite Hp. cbn [phasew]. lia.
  - change (map (slavew (set_phase D c MBarrier)) slaves) with (map (slavew c) slaves). cbn [set_phase d_phase d_tasks phasew]. rewrite Hp. cbn [phasew]. lia.
  - destruct (CH i ltac:(lia)) as (A & E1 & E2).
    { intros j Nj. wsimp. rewrite !upd_neq by auto. reflexivity. }
    rewrite E1, E2. wsimp. rewrite !upd_eq, Hm, Hs. cbn [map]. rewrite sum_cons. unfold msgw at 2.
    destruct (eqb d stop); cbn [phasew]; lia.
  - destruct (CH i ltac:(lia)) as (A & E1 & E2).
    { intros j Nj. wsimp. rewrite !upd_neq by auto. reflexivity. }
    rewrite E1, E2. wsimp. rewrite !upd_eq, Hs. lia.
  - destruct (CH i ltac:(lia)) as (A & E1 & E2).
    { intros j Nj. wsimp. rewrite !upd_neq by auto. reflexivity. }
    rewrite E1, E2. wsimp. rewrite !upd_eq, Hs, app_length. simpl. lia.
Qed.

Lemma dwork_bound c n : nsteps dstep n init c -> dinv c /\ n + dwork c <= dwork init.
Proof.
  intros H. remember init as i eqn:E. induction H as [|n a b c H IH Hs]; subst.
  - split; [apply dinv_init|lia].
  - destruct (IH eq_refl) as (I & L). split; [eapply dinv_step; eauto|].
    pose proof (dwork_decreases _ _ I Hs). lia.
Qed.

Lemma dwork_init : dwork init = 5 * length tasks0 + 3 * SIZE + 10.
Proof.
  unfold dwork. simpl d_tasks. simpl d_phase.
  assert (E : sum (map (slavew init) slaves) = 0).
  { induction slaves; simpl; auto. }
  rewrite E. simpl. lia.
Qed.
End Disp.

(** * CHECK_SAME *)
Lemma check_same_ok {A} (eqb : A -> A -> bool) a0 args :
  (forall x y, eqb x y = true <-> x = y) ->
  CHECK_SAME eqb (a0 :: args) = inl tt <-> forall a, In a (a0 :: args) -> a = a0.
Proof.
  intros He. unfold CHECK_SAME.
  set (l := a0 :: args).
  destruct (forallb (fun b => b) (map (fun a => eqb a a0) l)) eqn:E.
  - split; auto. intros _ a Ha. rewrite forallb_forall in E. apply He. apply E. apply in_map_iff. eauto.
  - split; [discriminate|]. intros H. exfalso.
    assert (forallb (fun b => b) (map (fun a => eqb a a0) l) = true); [|congruence].
    apply forallb_forall. intros b Hb. apply in_map_iff in Hb. destruct Hb as (a & <- & Ha).
    apply He. apply H. assumption.
Qed.

Lemma check_same_report {A} (eqb : A -> A -> bool) a0 args cores :
  (forall x y, eqb x y = true <-> x = y) ->
  CHECK_SAME eqb (a0 :: args) = inr cores ->
  forall i, In i cores <-> exists a, nth_error (a0 :: args) i = Some a /\ a <> a0.
Proof.
  intros He. unfold CHECK_SAME. set (l := a0 :: args).
  destruct (forallb (fun b => b) (map (fun a => eqb a a0) l)) eqn:E; [discriminate|].
  intros H. assert (Ec : cores = filter (fun i => negb (nth i (map (fun a => eqb a a0) l) true)) (seq 0 (length l))) by congruence.
  subst cores. intros i. rewrite filter_In, in_seq. split.
  - intros ((_ & Hi) & Hn). simpl in Hi.
    destruct (nth_error l i) as [a|] eqn:Ea.
    + exists a. split; [reflexivity|]. intros ->.
      rewrite (nth_error_nth _ _ true (map_nth_error (fun a => eqb a a0) _ _ Ea)) in Hn.
      rewrite (proj2 (He a0 a0) eq_refl) in Hn. discriminate.
    + apply nth_error_None in Ea. simpl in *. lia.
  - intros (a & Ea & Hn). split.
    + assert (i < length l) by (apply nth_error_Some; congruence). lia.
    + rewrite (nth_error_nth _ _ true (map_nth_error (fun a => eqb a a0) _ _ Ea)).
      destruct (eqb a a0) eqn:Eq; [|reflexivity]. apply He in Eq. contradiction.
Qed.

(** * Combined statements *)
Theorem chaining_correct SIZE prog : 1 <= SIZE ->
  (forall r, r < SIZE -> CHAINING SIZE r = Some (prog r)) ->
  forall c, star (chain_step SIZE prog) chain_init c ->
    (exists rest, flat_map (fun r => [Begin r; End_ r]) (seq 0 SIZE) = ch_trace c ++ rest) /\
    (chain_done SIZE prog c \/ exists c', chain_step SIZE prog c c') /\
    (chain_done SIZE prog c -> ch_trace c = flat_map (fun r => [Begin r; End_ r]) (seq 0 SIZE)).
Proof.
  intros HS HP c H. destruct (cinv_reach SIZE HS prog HP c H) as (k & st & I).
  split; [|split].
  - eapply chain_trace_prefix; eauto.
  - eapply chain_progress; eauto.
  - eapply chain_final_trace; eauto.
Qed.

Theorem dispatch_correct D eqb stop SIZE tasks : 3 <= SIZE ->
  (forall t, In t tasks -> eqb t stop = false) -> eqb stop stop = true ->
  forall c, star (dstep D eqb stop SIZE) (d_init D SIZE tasks) c ->
    d_phase D c <> MCrash /\
    (d_final D SIZE c \/ exists c', dstep D eqb stop SIZE c c') /\
    (d_final D SIZE c -> Permutation (concat (map (d_pool D c) (seq 1 (SIZE - 1)))) tasks).
Proof.
  intros HS Hns Hst c H. assert (I : dinv D eqb stop SIZE tasks c) by (eapply dinv_reach; eauto).
  split; [|split].
  - intros E. pose proof (di_ph _ _ _ _ _ _ I) as P. rewrite E in P. exact P.
  - eapply disp_progress; eauto.
  - eapply disp_final_perm; eauto.
Qed.

Theorem dispatch_terminates D eqb stop SIZE tasks : 3 <= SIZE ->
  (forall t, In t tasks -> eqb t stop = false) -> eqb stop stop = true ->
  forall n c, nsteps (dstep D eqb stop SIZE) n (d_init D SIZE tasks) c ->
  n <= 5 * length tasks + 3 * SIZE + 10.
Proof.
  intros HS Hns Hst n c H.
  assert (L : dinv D eqb stop SIZE tasks c /\ n + dwork D eqb stop SIZE c <= dwork D eqb stop SIZE (d_init D SIZE tasks)) by (eapply dwork_bound; eauto).
  rewrite dwork_init in L by assumption. lia.
Qed.

(** A task equal to the stop message: a reachable stuck state (3 cores, data = nat, stop = 0). *)
Definition stuck_cfg : disp nat :=
  mkD nat (MWait 1) [] [false; false; true] (upd (fun _ => SWait nat) 1 (SBarrier nat))
      (upd (upd (fun _ => []) 1 [0]) 1 []) (fun _ => []) (fun _ => []).

Lemma stuck_reach : star (dstep nat Nat.eqb 0 3) (d_init nat 3 [0]) stuck_cfg.
Proof.
  eapply star_snoc; [eapply star_snoc; [eapply star_snoc; [apply star_refl|]|]|].
  - eapply (d_send nat Nat.eqb 0 3 (d_init nat 3 [0]) 0 [] 1); reflexivity.
  - eapply d_recv with (i := 1) (d := 0) (rest := []); [lia|reflexivity|reflexivity].
  - eapply d_loop_end; reflexivity.
Qed.

Lemma stuck_stuck c' : ~ dstep nat Nat.eqb 0 3 stuck_cfg c'.
Proof.
  intros H. inversion H; subst; simpl in *; try discriminate;
    repeat match goal with HH : MWait _ = MWait _ |- _ => injection HH as HH; subst end;
    simpl in *; try discriminate;
    match goal with HH : 1 <= ?i < 3 |- _ => destruct i as [|[|[|i]]] end; simpl in *; try lia; discriminate.
Qed.

Lemma stuck_not_final : ~ d_final nat 3 stuck_cfg.
Proof. unfold d_final. simpl. intros H. repeat match goal with H : _ /\ _ |- _ => destruct H end; try discriminate. Qed.

Lemma dispatch_stuck : exists (tasks : list nat) c,
    star (dstep nat Nat.eqb 0 3) (d_init nat 3 tasks) c /\
    ~ d_final nat 3 c /\ forall c', ~ dstep nat Nat.eqb 0 3 c c'.
Proof. exists [0], stuck_cfg. auto using stuck_reach, stuck_not_final, stuck_stuck. Qed.
