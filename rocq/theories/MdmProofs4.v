(** The residual and the Newton matrix of a nonlinear system. *)
From Coq Require Import List Arith Bool Lia Permutation Ring.
From Verif Require Import Prelude RingSum MdmModel MdmSpec MdmProofs MdmProofs2 MdmProofs3.
Import ListNotations.

Lemma nls_ok_iff K (s : nls K) : nls_ok K s = true ->
  (forall t, In t (tests K s) -> ~ In t (unknowns K s)) /\
  (forall i m, i < length (tests K s) -> In m (term_row K s i) ->
     NoDup (cor K m) /\ In (nth i (tests K s) 0) (cor K m) /\
     forall f, In f (cor K m) -> f = nth i (tests K s) 0 \/ In f (unknowns K s)).
Proof.
  unfold nls_ok. rewrite !andb_true_iff. intros [[[[H _] _] _] H']. split.
  - rewrite forallb_forall in H. intros t I. specialize (H t I). apply negb_true_iff, mem_false in H. exact H.
  - intros i m Hi I. rewrite forallb_forall in H'. specialize (H' i ltac:(apply in_seq; lia)).
    rewrite forallb_forall in H'. specialize (H' m I). rewrite !andb_true_iff in H'. destruct H' as [[A B] C].
    split; [apply inhomogeneous_iff, A|]. split; [apply mem_In, B|]. intros f If. rewrite forallb_forall in C.
    specialize (C f If). apply orb_true_iff in C. rewrite Nat.eqb_eq, mem_In in C. exact C.
Qed.

Section P.
  Variable K : CRing.
  Add Ring Kring : (Rth K).
  Variable nb : form -> nat.
  Local Open Scope ring_s.
  Notation zero := (fun _ _ : nat => @r0 K).

  Lemma keys (U : list form) (xs : list (local K)) : length xs = length U -> map fst (combine U xs) = U.
  Proof.
    revert xs. induction U as [|u U IH]; intros [|x xs] L; simpl in *; try discriminate; [reflexivity|].
    rewrite IH by lia. reflexivity.
  Qed.
  Lemma combine_nth_In (U : list form) (xs : list (local K)) j : length xs = length U -> (j < length U)%nat ->
    In (nth j U 0%nat, nth j xs zero) (combine U xs).
  Proof.
    revert xs j. induction U as [|u U IH]; intros [|x xs] [|j] L H; simpl in *; try lia; [auto|]. right. apply IH; lia.
  Qed.
  (** the vector of the j-th unknown *)
  Lemma at_unknown (s : nls K) xs e j : NoDup (unknowns K s) -> length xs = length (unknowns K s) ->
    (j < length (unknowns K s))%nat -> at_unknowns K s xs e (nth j (unknowns K s) 0%nat) = nth j xs zero e.
  Proof.
    intros D L H. unfold at_unknowns. apply given_In; [rewrite keys by exact L; exact D|]. apply combine_nth_In; assumption.
  Qed.

  Lemma fold_ladd (vs : list (local K)) : forall v e r,
    fold_left (ladd K) vs v e r = v e r + bsum vs (fun w => w e r).
  Proof.
    induction vs as [|w vs IH]; intros v e r; simpl; [rewrite bsum_nil; ring|].
    rewrite IH, bsum_cons. unfold ladd. ring.
  Qed.
  Lemma fold_madd (Ms : list (lmat K)) : forall M e r c,
    fold_left (madd K) Ms M e r c = M e r c + bsum Ms (fun w => w e r c).
  Proof.
    induction Ms as [|w Ms IH]; intros M e r c; simpl; [rewrite bsum_nil; ring|].
    rewrite IH, bsum_cons. unfold madd. ring.
  Qed.
  Lemma sequence_app {A} (l1 l2 : list (option A)) a1 a2 : sequence l1 = Some a1 -> sequence l2 = Some a2 ->
    sequence (l1 ++ l2) = Some (a1 ++ a2).
  Proof.
    revert a1. induction l1 as [|[a|] l1 IH]; simpl; intros a1 E1 E2; [injection E1 as <-; exact E2| |discriminate].
    destruct (sequence l1) as [b|] eqn:E; [|discriminate]. simpl in E1. injection E1 as <-.
    rewrite (IH b eq_refl E2). reflexivity.
  Qed.
  Definition svec (x : summand K) : option (local K) := match x with SVec _ v => Some v | SZero _ => None end.
  Lemma seq_svec (vs : list (local K)) : sequence (map svec (map (SVec K) vs)) = Some vs.
  Proof. induction vs as [|v vs IH]; simpl; [reflexivity|]. rewrite IH. reflexivity. Qed.
  Lemma sum_up_vecs (vs : list (local K)) : vs <> [] ->
    exists v, sum_up K (map (SVec K) vs) = Some v /\ forall e r, v e r = bsum vs (fun w => w e r).
  Proof.
    intros H. unfold sum_up. pose proof (seq_svec vs) as E. unfold svec in E. rewrite E. destruct vs as [|v vs]; [congruence|].
    eexists. split; [reflexivity|]. intros e r. rewrite fold_ladd, bsum_cons. reflexivity.
  Qed.

  (** ** evaluate_f *)
  Lemma term_value (s : nls K) xs i m : usable K s -> length xs = length (unknowns K s) -> (i < length (tests K s))%nat ->
    In m (term_row K s i) ->
    exists v, evaluate K nb [] m (the_pairs K s xs) = Some (EVec K v) /\
      forall e r, v e r = mform K nb m e (upd K (at_unknowns K s xs e) (nth i (tests K s) 0%nat) (unit K r)).
  Proof.
    intros (Ok & Du & _) L Hi I. destruct (nls_ok_iff K s Ok) as [Nt H]. destruct (H i m Hi I) as (Dc & It & Hc).
    unfold the_pairs, at_unknowns. apply evaluate_one; rewrite ?keys by exact L; auto.
    - apply Nt, nth_In, Hi.
    - intros g Ig Dg. destruct (Hc g Ig); [congruence|assumption].
  Qed.
  Lemma evaluate_fi_ok (s : nls K) xs i : usable K s -> length xs = length (unknowns K s) -> (i < length (tests K s))%nat ->
    exists v, evaluate_fi K nb s xs i = Some v /\ forall e r, v e r = residual K nb s xs i e r.
  Proof.
    intros Us L Hi. pose proof Us as (Ok & Du & Lb & Nz & Ne).
    unfold evaluate_fi.
    set (lin := flat_map (fun j => match block K s i j with None => [] | Some M => [mat_apply K (nb (nth j (unknowns K s) 0%nat)) M (nth j xs zero)] end)
                 (seq 0 (length (unknowns K s)))).
    assert (flat_map (fun j => match block K s i j with
                                  | None => []
                                  | Some M => [SVec K (mat_apply K (nb (nth j (unknowns K s) 0%nat)) M (nth j xs zero))]
                                  end) (seq 0 (length (unknowns K s))) = map (SVec K) lin) as ->.
    { unfold lin. generalize (seq 0 (length (unknowns K s))). induction l as [|j l IH]; simpl; [reflexivity|].
      rewrite IH, map_app. destruct (block K s i j); reflexivity. }
    assert (exists nl, sequence (map (fun m => match evaluate K nb [] m (the_pairs K s xs) with
                                  | Some (EVec _ v) => Some (SVec K v)
                                  | _ => None end) (term_row K s i)) = Some (map (SVec K) nl) /\
             length nl = length (term_row K s i) /\
             forall e r, bsum nl (fun w => w e r) = nonlinear_part K nb s xs i e r) as (nl & -> & Ln & En).
    { unfold nonlinear_part. assert (forall m, In m (term_row K s i) ->
        exists v, evaluate K nb [] m (the_pairs K s xs) = Some (EVec K v) /\
        forall e r, v e r = mform K nb m e (upd K (at_unknowns K s xs e) (nth i (tests K s) 0%nat) (unit K r))) as H
        by (intros m I; apply term_value; assumption).
      revert H. generalize (term_row K s i). induction l as [|m l IH]; intros H.
      - exists []. split; [reflexivity|]. split; [reflexivity|]. reflexivity.
      - destruct (H m (or_introl eq_refl)) as (v & Ev & Hv).
        destruct IH as (nl & E & Ln & En); [intros m' I; apply H; right; exact I|].
        exists (v :: nl). simpl. rewrite Ev, E. simpl. split; [reflexivity|]. split; [lia|].
        intros e r. rewrite !bsum_cons, Hv, En. reflexivity. }
    destruct (nth_error (bs K s) i) as [b|] eqn:Eb; [|apply nth_error_None in Eb; lia].
    pose proof (nth_error_nth _ _ (BNone K) Eb) as Enb.
    assert (exists bl, match b with BNone _ => [] | BZero _ => [SZero K] | BVec _ v => [SVec K (lneg K v)] end = map (SVec K) bl /\
      (forall e r, bsum bl (fun w => w e r) = - rhs_part K s i e r) /\ ((exists v, b = BVec K v) -> bl <> [])) as (bl & -> & Hb & Nb).
    { unfold rhs_part. rewrite Enb. destruct b as [| |v].
      - exists []. split; [reflexivity|]. split; [intros; rewrite bsum_nil; ring|]. intros (v & E). discriminate.
      - exfalso. apply Nz. eapply nth_error_In, Eb.
      - exists [lneg K v]. split; [reflexivity|]. split; [|discriminate]. intros e r. rewrite bsum_cons, bsum_nil. unfold lneg. ring. }
    rewrite <- !map_app. destruct (sum_up_vecs (lin ++ nl ++ bl)) as (v & Ev & Hv).
    - intros E. apply app_eq_nil in E. destruct E as [E1 E2]. apply app_eq_nil in E2. destruct E2 as [E2 E3].
      destruct (Ne i Hi) as [A|[(j & M & Hj & A)|(v & A)]].
      + subst nl. destruct (term_row K s i); [congruence|discriminate].
      + assert (In (mat_apply K (nb (nth j (unknowns K s) 0%nat)) M (nth j xs zero)) lin) as I.
        { unfold lin. apply in_flat_map. exists j. split; [apply in_seq; lia|]. rewrite A. left. reflexivity. }
        rewrite E1 in I. destruct I.
      + rewrite Enb in A. apply Nb; eauto.
    - exists v. split; [exact Ev|]. intros e r. rewrite Hv, !bsum_app, En, Hb. unfold residual.
      assert (bsum lin (fun w => w e r) = linear_part K nb s xs i e r) as ->; [|ring].
      unfold lin, linear_part. rewrite bsum_flat_map. apply bsum_ext. intros j _.
      destruct (block K s i j) as [M|]; [rewrite bsum_cons, bsum_nil|reflexivity]. unfold mat_apply. ring.
  Qed.
  Lemma evaluate_f_ok (s : nls K) xs neg : usable K s -> length xs = length (unknowns K s) ->
    exists f, evaluate_f K nb s xs neg = Some f /\ length f = length (tests K s) /\
      forall i e r, (i < length (tests K s))%nat -> nth i f zero e r =
        (if neg then - residual K nb s xs i e r else residual K nb s xs i e r).
  Proof.
    intros Us L. unfold evaluate_f.
    destruct (sequence_map (evaluate_fi K nb s xs) (fun i v => forall e r, v e r = residual K nb s xs i e r)
      (seq 0 (length (tests K s)))) as (f & -> & F).
    { intros i Hi. apply in_seq in Hi. apply evaluate_fi_ok; [assumption..|lia]. }
    apply (Forall2_seq _ _ _ _ zero) in F. destruct F as [Lf F]. simpl. eexists. split; [reflexivity|].
    split; [rewrite map_length; exact Lf|]. intros i e r Hi.
    transitivity ((if neg then lneg K (nth i f zero) else nth i f zero) e r).
    { apply (f_equal (fun v : local K => v e r)). rewrite <- (map_nth (fun v : local K => if neg then lneg K v else v)).
      apply nth_indep. rewrite map_length. exact (Nat.lt_le_trans _ _ _ Hi (Nat.eq_le_incl _ _ (eq_sym Lf))). }
    destruct neg; unfold lneg; rewrite (F i Hi); reflexivity.
  Qed.
  (** a right hand side given as 0 *)
  Lemma evaluate_f_zero (s : nls K) xs neg i : (i < length (tests K s))%nat -> nth_error (bs K s) i = Some (BZero K) ->
    evaluate_f K nb s xs neg = None.
  Proof.
    intros Hi E. unfold evaluate_f. rewrite sequence_None; [reflexivity|]. apply in_map_iff. exists i.
    split; [|apply in_seq; lia]. unfold evaluate_fi. destruct (sequence _); [|reflexivity]. rewrite E.
    unfold sum_up. rewrite sequence_None; [reflexivity|]. apply in_map_iff. exists (SZero K). split; [reflexivity|].
    rewrite !in_app_iff. simpl. auto.
  Qed.

  (** ** the blocks of the matrix *)
  Definition bval (o : option (lmat K)) (e r c : nat) : K := match o with None => 0 | Some M => M e r c end.
  Definition dterm (s : nls K) xs i j (m : mdm K) e r c : K :=
    if mem (nth j (unknowns K s) 0%nat) (cor K m)
    then mform K nb m e (upd K (upd K (at_unknowns K s xs e) (nth i (tests K s) 0%nat) (unit K r)) (nth j (unknowns K s) 0%nat) (unit K c))
    else 0.
  Lemma given_filter (p : form * local K -> bool) pairs e f : NoDup (map fst pairs) ->
    (forall q, In q pairs -> fst q = f -> p q = true) -> given K (filter p pairs) e f = given K pairs e f.
  Proof.
    induction pairs as [|[g c] ps IH]; simpl; intros D H; [reflexivity|]. inversion D; subst.
    destruct (p (g, c)) eqn:E; simpl.
    - destruct (g =? f)%nat; [reflexivity|]. apply IH; auto.
    - destruct (Nat.eqb_spec g f) as [->|Dg]; [|apply IH; auto].
      rewrite (H (f, c) (or_introl eq_refl) eq_refl) in E. discriminate.
  Qed.
  Lemma term_derivative (s : nls K) xs i j m : usable K s -> trilinear K s -> length xs = length (unknowns K s) ->
    (i < length (tests K s))%nat -> (j < length (unknowns K s))%nat -> In m (term_row K s i) ->
    exists o, derivative_contribution_to K nb m (nth i (tests K s) 0%nat) (nth j (unknowns K s) 0%nat)
                (filter (fun p => negb (fst p =? nth j (unknowns K s) 0%nat)) (the_pairs K s xs)) = Some o /\
      forall e r c, (r < nb (nth i (tests K s) 0%nat))%nat -> (c < nb (nth j (unknowns K s) 0%nat))%nat ->
        match o with None => 0 | Some (_, _, M) => M e r c end = dterm s xs i j m e r c.
  Proof.
    intros Us Tr L Hi Hj I. pose proof Us as (Ok & Du & _). destruct (nls_ok_iff K s Ok) as [Nt H].
    destruct (H i m Hi I) as (Dc & It & Hc). unfold dterm. set (tv := nth i (tests K s) 0%nat) in *.
    set (uv := nth j (unknowns K s) 0%nat) in *. specialize (Nt tv (nth_In _ _ Hi)).
    assert (In uv (unknowns K s)) as Iu by (apply nth_In, Hj).
    destruct (mem uv (cor K m)) eqn:Em.
    - apply mem_In in Em. destruct (three_ok (cor K m) tv Dc (Tr i m I) It) as (a & b & T).
      assert (exists w, three (cor K m) tv uv w) as (w & Tw).
      { destruct (proj1 (three_In _ _ _ _ uv T) Em) as [E|[E|E]].
        - exfalso. apply Nt. rewrite <- E. exact Iu.
        - exists b. rewrite E. exact T.
        - exists a. rewrite E. destruct T as (P & A & B & C). split; [|auto].
          eapply perm_trans; [exact P|]. apply perm_skip, perm_swap. }
      assert (In w (unknowns K s)) as Iw.
      { destruct (Hc w) as [E|E]; [apply (three_In _ _ _ _ w Tw); auto| |exact E].
        destruct Tw as (_ & _ & A & _). congruence. }
      apply In_nth with (d := 0%nat) in Iw. destruct Iw as (k & Hk & Ek).
      set (known := filter (fun p => negb (fst p =? uv)) (the_pairs K s xs)).
      assert (NoDup (map fst (the_pairs K s xs))) as Dk by (unfold the_pairs; rewrite keys by exact L; exact Du).
      assert (NoDup (map fst known)) as Dn.
      { unfold known. clear -Dk. induction (the_pairs K s xs) as [|[g c] ps IH]; simpl; [constructor|].
        inversion Dk as [|? ? D1 D2]; subst. destruct (negb (g =? uv)); [|exact (IH D2)]. simpl. constructor; [|exact (IH D2)].
        intros J. apply D1. apply in_map_iff in J. destruct J as (q & E & J). apply filter_In in J. destruct J as [J _].
        apply in_map_iff. exists q. auto. }
      destruct (derivative_ok K nb m tv uv w (nth k xs zero) known Tw Dn) as (M & EM & HM).
      + unfold known. apply filter_In. split.
        * rewrite <- Ek. apply combine_nth_In; assumption.
        * simpl. apply negb_true_iff, Nat.eqb_neq. destruct Tw as (_ & _ & _ & A). congruence.
      + intros J. apply Nt. apply in_map_iff in J. destruct J as (q & E & J). apply filter_In in J. destruct J as [J _].
        apply in_map with (f := fst) in J. unfold the_pairs in J. rewrite keys in J by exact L. rewrite <- E. exact J.
      + intros J. apply in_map_iff in J. destruct J as (q & E & J). apply filter_In in J. destruct J as [_ J].
        rewrite E, Nat.eqb_refl in J. discriminate.
      + exists (Some (tv, uv, M)). split; [exact EM|]. intros e r c Hr Hc'. rewrite HM by assumption.
        apply mform_ext. intros f x If _. unfold upd. destruct (Nat.eqb_spec f uv) as [|Df]; [reflexivity|].
        destruct (f =? tv)%nat; [reflexivity|]. unfold known, at_unknowns. rewrite given_filter; [reflexivity|exact Dk|].
        intros q _ E. apply negb_true_iff, Nat.eqb_neq. congruence.
    - apply mem_false in Em. exists None. split; [apply derivative_none; assumption|]. reflexivity.
  Qed.
  Lemma lhs_block_ok (s : nls K) xs i j : usable K s -> trilinear K s -> length xs = length (unknowns K s) ->
    (i < length (tests K s))%nat -> (j < length (unknowns K s))%nat ->
    exists o, lhs_block K nb s xs i j = Some o /\
      forall e r c, (r < nb (nth i (tests K s) 0%nat))%nat -> (c < nb (nth j (unknowns K s) 0%nat))%nat ->
        bval o e r c = bval (block K s i j) e r c + bsum (term_row K s i) (fun m => dterm s xs i j m e r c).
  Proof.
    intros Us Tr L Hi Hj. unfold lhs_block.
    assert (exists cs, sequence (map (fun m => derivative_contribution_to K nb m (nth i (tests K s) 0%nat) (nth j (unknowns K s) 0%nat)
                (filter (fun p => negb (fst p =? nth j (unknowns K s) 0%nat)) (the_pairs K s xs))) (term_row K s i)) = Some cs /\
       forall e r c, (r < nb (nth i (tests K s) 0%nat))%nat -> (c < nb (nth j (unknowns K s) 0%nat))%nat ->
       bsum (flat_map (fun c => match c with None => [] | Some (_, _, M) => [M] end) cs) (fun M : lmat K => M e r c) =
       bsum (term_row K s i) (fun m => dterm s xs i j m e r c)) as (cs & -> & Hcs).
    { assert (forall m, In m (term_row K s i) -> exists o, derivative_contribution_to K nb m (nth i (tests K s) 0%nat) (nth j (unknowns K s) 0%nat)
                (filter (fun p => negb (fst p =? nth j (unknowns K s) 0%nat)) (the_pairs K s xs)) = Some o /\
          forall e r c, (r < nb (nth i (tests K s) 0%nat))%nat -> (c < nb (nth j (unknowns K s) 0%nat))%nat ->
          match o with None => 0 | Some (_, _, M) => M e r c end = dterm s xs i j m e r c) as H
        by (intros m I; apply term_derivative; assumption).
      revert H. generalize (term_row K s i). induction l as [|m l IH]; intros H; [exists []; split; reflexivity|].
      destruct (H m (or_introl eq_refl)) as (o & Eo & Ho).
      destruct IH as (cs & E & Hc); [intros m' I; apply H; right; exact I|].
      exists (o :: cs). simpl. rewrite Eo, E. split; [reflexivity|]. intros e r c Hr Hc'.
      rewrite bsum_app, bsum_cons, Hc, <- (Ho e r c Hr Hc') by assumption.
      destruct o as [[[a b] M]|]; [rewrite bsum_cons|]; rewrite bsum_nil; ring. }
    set (l := flat_map _ cs) in *.
    assert (exists o, match (match block K s i j with None => [] | Some M => [M] end) ++ l with
        | [] => Some None | M :: Ms => Some (Some (fold_left (madd K) Ms M)) end = Some o /\
        forall e r c, bval o e r c = bval (block K s i j) e r c + bsum l (fun M : lmat K => M e r c)) as (o & -> & Ho).
    { destruct (block K s i j) as [M|]; simpl.
      - eexists. split; [reflexivity|]. intros e r c. simpl. apply fold_madd.
      - destruct l as [|M Ms].
        + eexists. split; [reflexivity|]. intros e r c. simpl. rewrite bsum_nil. ring.
        + eexists. split; [reflexivity|]. intros e r c. simpl. rewrite fold_madd, bsum_cons. ring. }
    exists o. split; [reflexivity|]. intros e r c Hr Hc. rewrite Ho, Hcs by assumption. reflexivity.
  Qed.
  Lemma lhs_ok (s : nls K) xs : usable K s -> trilinear K s -> length xs = length (unknowns K s) ->
    exists A, lhs K nb s xs = Some A /\ length A = length (tests K s) /\
      forall i j e r c, (i < length (tests K s))%nat -> (j < length (unknowns K s))%nat ->
        (r < nb (nth i (tests K s) 0%nat))%nat -> (c < nb (nth j (unknowns K s) 0%nat))%nat ->
        bval (nth j (nth i A []) None) e r c =
        bval (block K s i j) e r c + bsum (term_row K s i) (fun m => dterm s xs i j m e r c).
  Proof.
    intros Us Tr L. unfold lhs.
    destruct (sequence_map (fun i => sequence (map (lhs_block K nb s xs i) (seq 0 (length (unknowns K s)))))
      (fun i row => forall j e r c, (j < length (unknowns K s))%nat ->
        (r < nb (nth i (tests K s) 0%nat))%nat -> (c < nb (nth j (unknowns K s) 0%nat))%nat ->
        bval (nth j row None) e r c =
        bval (block K s i j) e r c + bsum (term_row K s i) (fun m => dterm s xs i j m e r c)) (seq 0 (length (tests K s)))) as (A & -> & F).
    { intros i Hi. apply in_seq in Hi.
      destruct (sequence_map (lhs_block K nb s xs i) (fun j o => forall e r c,
        (r < nb (nth i (tests K s) 0%nat))%nat -> (c < nb (nth j (unknowns K s) 0%nat))%nat ->
        bval o e r c = bval (block K s i j) e r c + bsum (term_row K s i) (fun m => dterm s xs i j m e r c))
        (seq 0 (length (unknowns K s)))) as (row & -> & G).
      { intros j Hj. apply in_seq in Hj. apply lhs_block_ok; [assumption..|lia|lia]. }
      apply (Forall2_seq _ _ _ _ None) in G. destruct G as [_ G]. exists row. split; [reflexivity|].
      intros j e r c Hj Hr Hc. apply (G j Hj); assumption. }
    apply (Forall2_seq _ _ _ _ []) in F. destruct F as [LA F]. exists A. split; [reflexivity|]. split; [exact LA|].
    intros i j e r c Hi Hj Hr Hc. apply (F i Hi); assumption.
  Qed.
End P.
