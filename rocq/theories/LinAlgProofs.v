(** Proofs for C25-C28. *)
From Coq Require Import List Arith ZArith Bool Lia.
From Verif Require Import Prelude PreludeProofs RingSum AssembleModel EwcModel AsmModel LinAlgModel LinAlgSpec SplitProofs.
Import ListNotations.

Section P.
  Variable K : CRing.
  Add Ring Kring7 : (Rth K).
  Local Open Scope ring_s.

  Lemma fold_gplus {A} (f : A -> gmat K) l : forall C i j, fold_left (fun C x => gplus K C (f x)) l C i j = C i j + bsum l (fun x => f x i j).
  Proof.
    induction l as [|x l IH]; intros C i j; simpl; [rewrite bsum_nil; ring|]. rewrite IH, bsum_cons. unfold gplus. ring.
  Qed.
  Lemma mm_total n SIZE A B i j :
    bsum (seq 0 SIZE) (fun r => bsum (seq 0 SIZE) (fun s => mm K n (A r) (B s) i j)) =
    mm K n (total K SIZE A) (total K SIZE B) i j.
  Proof.
    unfold mm, total. 
    rewrite (bsum_ext _ _ _ (fun r => bsum (seq 0 n) (fun k => A r i k * bsum (seq 0 SIZE) (fun s => B s k j)))).
    2:{ intros r _. rewrite bsum_swap. apply bsum_ext. intros k _. rewrite bsum_mul_l. reflexivity. }
    rewrite bsum_swap. apply bsum_ext. intros k _. rewrite bsum_mul_r. reflexivity.
  Qed.
  Lemma nnz0_entry (M : sparse K) i j : nnz K M = 0%nat -> entry M i j = 0.
  Proof.
    intros H. destruct M as [rows|nc rows|nr cols]; cbn [nnz] in H; apply length_zero_iff_nil in H.
    - cbn [entry]. assert (E : nth i rows [] = []).
      { destruct (nth_in_or_default i rows []) as [G|G]; [|exact G]. destruct (nth i rows []) as [|x l] eqn:E; [reflexivity|].
        exfalso. assert (X : In x []); [|destruct X]. rewrite <- H. apply in_concat. exists (x :: l). split; [exact G|left; reflexivity]. }
      rewrite E. destruct j; reflexivity.
    - cbn [entry]. apply bsum_0. intros p Hp. exfalso. assert (X : In p []); [|destruct X]. rewrite <- H. apply in_concat. exists (nth i rows []). split; [|exact Hp].
      destruct (nth_in_or_default i rows []) as [G|G]; [exact G|rewrite G in Hp; destruct Hp].
    - cbn [entry]. apply bsum_0. intros p Hp. exfalso. assert (X : In p []); [|destruct X]. rewrite <- H. apply in_concat. exists (nth j cols []). split; [|exact Hp].
      destruct (nth_in_or_default j cols []) as [G|G]; [exact G|rewrite G in Hp; destruct Hp].
  Qed.
  Lemma md_entry SIZE p : master_dominating K SIZE p = true -> forall r i j, (r < SIZE)%nat -> r <> 0%nat -> entry (p r) i j = 0.
  Proof.
    intros H r i j Hr N. unfold master_dominating in H. rewrite forallb_forall in H. specialize (H r ltac:(apply in_seq; lia)).
    apply orb_true_iff in H. destruct H as [H|H]; apply Nat.eqb_eq in H; [contradiction|]. apply nnz0_entry. exact H.
  Qed.
  Lemma md_total SIZE p : (0 < SIZE)%nat -> master_dominating K SIZE p = true -> forall i j, total K SIZE (fun r => entry (p r)) i j = entry (p 0%nat) i j.
  Proof.
    intros HS H i j. unfold total. apply (bsum_only _ (seq 0 SIZE) 0%nat (fun r => entry (p r) i j)); [apply seq_NoDup|apply in_seq; lia|].
    intros r Hr N. apply in_seq in Hr. apply (md_entry SIZE p H); [lia|exact N].
  Qed.

  Lemma matmul_ok SIZE n A B C : (0 < SIZE)%nat -> matmul K SIZE n A B = Some C ->
    forall i j, total K SIZE C i j =
      mm K n (total K SIZE (fun r => entry (part K A r))) (total K SIZE (fun r => entry (part K B r))) i j.
  Proof.
    intros HS E i j. unfold matmul in E. destruct (master_dominating K SIZE (part K A)) eqn:MA; cbn [andb] in E;
      [destruct (master_dominating K SIZE (part K B)) eqn:MB|].
    - injection E as <-. unfold total at 1. rewrite (bsum_only _ (seq 0 SIZE) 0%nat); [|apply seq_NoDup|apply in_seq; lia|].
      + cbn [Nat.eqb]. unfold mm. apply bsum_ext. intros k _. rewrite (md_total SIZE _ HS MA), (md_total SIZE _ HS MB). reflexivity.
      + intros r _ N. destruct (Nat.eqb_spec r 0); [contradiction|reflexivity].
    - destruct (rd_get K SIZE A) as [ra|]; [|discriminate]. destruct (truthy ra).
      + injection E as <-. rewrite <- mm_total. unfold total. apply bsum_ext. intros r _. rewrite fold_gplus. unfold mzero. ring.
      + destruct (rd_get K SIZE B) as [rb|]; [|discriminate]. destruct (truthy rb); [|discriminate]. injection E as <-. rewrite <- mm_total, bsum_swap.
        unfold total. apply bsum_ext. intros r _. rewrite fold_gplus. unfold mzero. ring.
    - destruct (rd_get K SIZE A) as [ra|]; [|discriminate]. destruct (truthy ra).
      + injection E as <-. rewrite <- mm_total. unfold total. apply bsum_ext. intros r _. rewrite fold_gplus. unfold mzero. ring.
      + destruct (rd_get K SIZE B) as [rb|]; [|discriminate]. destruct (truthy rb); [|discriminate]. injection E as <-. rewrite <- mm_total, bsum_swap.
        unfold total. apply bsum_ext. intros r _. rewrite fold_gplus. unfold mzero. ring.
  Qed.
  Lemma matmul_defined SIZE n A B : rd_get K SIZE A <> None -> rd_get K SIZE B <> None ->
    (matmul K SIZE n A B = None <->
     rd K A = RFalse /\ rd K B = RFalse /\ ~ (forall r, (0 < r < SIZE)%nat -> nnz K (part K A r) = 0%nat /\ nnz K (part K B r) = 0%nat)).
  Proof.
    intros HA HB. assert (MD : forall p, master_dominating K SIZE p = true <-> forall r, (0 < r < SIZE)%nat -> nnz K (p r) = 0%nat).
    { intros p. unfold master_dominating. rewrite forallb_forall. split.
      - intros H r Hr. specialize (H r ltac:(apply in_seq; lia)). apply orb_true_iff in H. destruct H as [H|H]; apply Nat.eqb_eq in H; [lia|exact H].
      - intros H r Hr. apply in_seq in Hr. destruct (Nat.eqb_spec r 0); [reflexivity|]. apply Nat.eqb_eq. apply H. lia. }
    unfold matmul. destruct (master_dominating K SIZE (part K A) && master_dominating K SIZE (part K B)) eqn:E.
    - split; [discriminate|]. intros (_ & _ & N). exfalso. apply N. apply andb_true_iff in E. destruct E as [E1 E2].
      intros r Hr. split; [apply (proj1 (MD _) E1 r Hr)|apply (proj1 (MD _) E2 r Hr)].
    - assert (N : ~ (forall r, (0 < r < SIZE)%nat -> nnz K (part K A r) = 0%nat /\ nnz K (part K B r) = 0%nat)).
      { intros H. assert (master_dominating K SIZE (part K A) = true) by (apply MD; intros r Hr; apply (H r Hr)).
        assert (master_dominating K SIZE (part K B) = true) by (apply MD; intros r Hr; apply (H r Hr)). rewrite H0, H1 in E. discriminate. }
      assert (GA : rd_get K SIZE A = Some (rd K A)) by (unfold rd_get in HA |- *; destruct (match rd K A with RFalse => _ | _ => _ end); [reflexivity|congruence]).
      assert (GB : rd_get K SIZE B = Some (rd K B)) by (unfold rd_get in HB |- *; destruct (match rd K B with RFalse => _ | _ => _ end); [reflexivity|congruence]).
      rewrite GA, GB. destruct (rd K A); cbn [truthy]; try (split; [discriminate|intros (X & _); discriminate]).
      destruct (rd K B); cbn [truthy]; try (split; [discriminate|intros (_ & X & _); discriminate]). tauto.
  Qed.

  (** matrix @ vector *)
  Lemma matvec_total n SIZE A v i : bsum (seq 0 SIZE) (fun r => matvec K n (A r) v i) = matvec K n (total K SIZE A) v i.
  Proof.
    unfold matvec, total. rewrite bsum_swap. apply bsum_ext. intros k _. rewrite bsum_mul_r. reflexivity.
  Qed.
  Lemma centry_combine nec (v : nat -> K) k : NoDup nec -> centry K (combine nec (map v nec)) k = if existsb (Nat.eqb k) nec then v k else 0.
  Proof.
    intros ND. unfold centry. replace (combine nec (map v nec)) with (map (fun c => (c, v c)) nec) by (clear; induction nec; simpl; congruence).
    rewrite bsum_map. cbn [fst snd]. destruct (existsb (Nat.eqb k) nec) eqn:E.
    - apply existsb_exists in E. destruct E as (x & Hx & Ex). apply Nat.eqb_eq in Ex. subst x. apply (bsum_pick_nat _ nec k v ND Hx).
    - apply bsum_0. intros c Hc. destruct (Nat.eqb_spec c k) as [->|N]; [|reflexivity]. exfalso.
      assert (X : existsb (Nat.eqb k) nec = true) by (apply existsb_exists; exists k; rewrite Nat.eqb_refl; auto). congruence.
  Qed.
  Lemma csr_matvec n (M : sparse K) v nec i : csr_ok K n M -> nonempty_columns K M = Some nec ->
    matvec K n (entry M) (centry K (combine nec (map v nec))) i = matvec K n (entry M) v i.
  Proof.
    intros OK E. destruct M as [|nc rows|]; cbn in OK; try tauto. destruct OK as [-> OK]. cbn in E. injection E as <-.
    unfold matvec. apply bsum_ext. intros k Hk. rewrite centry_combine by (apply NoDup_filter, seq_NoDup).
    destruct (existsb (Nat.eqb k) (filter _ _)) eqn:E; [reflexivity|].
    assert (Z : entry (CSR K n rows) i k = 0).
    { cbn [entry]. apply bsum_0. intros p Hp. destruct (Nat.eqb_spec (fst p) k) as [Ek|]; [|reflexivity]. exfalso.
      assert (X : existsb (Nat.eqb k) (filter (fun c => existsb (Nat.eqb c) (map fst (concat rows))) (seq 0 n)) = true); [|congruence].
      apply existsb_exists. exists k. rewrite Nat.eqb_refl. split; [|reflexivity]. apply filter_In. split; [exact Hk|]. apply existsb_exists. exists k. rewrite Nat.eqb_refl. split; [|reflexivity].
      rewrite <- Ek. apply in_map. apply in_concat. exists (nth i rows []). split; [|exact Hp].
      destruct (nth_in_or_default i rows []) as [G|G]; [exact G|rewrite G in Hp; destruct Hp]. }
    rewrite Z. ring.
  Qed.
  Lemma matvec_gathered_ok SIZE n A v : (0 < SIZE)%nat ->
    (master_dominating K SIZE (part K A) = true \/ forall r, (r < SIZE)%nat -> csr_ok K n (part K A r)) ->
    exists w, matvec_gathered K SIZE n A v = Some w /\
      forall i, vtotal K SIZE w i = matvec K n (total K SIZE (fun r => entry (part K A r))) v i.
  Proof.
    intros HS H. unfold matvec_gathered. destruct (master_dominating K SIZE (part K A)) eqn:MD.
    - eexists. split; [reflexivity|]. intros i. unfold vtotal. rewrite (bsum_only _ (seq 0 SIZE) 0%nat); [|apply seq_NoDup|apply in_seq; lia|].
      + cbn [Nat.eqb]. unfold matvec. apply bsum_ext. intros k _. rewrite (md_total SIZE _ HS MD). reflexivity.
      + intros r _ N. destruct (Nat.eqb_spec r 0); [contradiction|reflexivity].
    - destruct H as [H|H]; [discriminate|].
      assert (D : forall r, (r < SIZE)%nat -> exists nec, nonempty_columns K (part K A r) = Some nec).
      { intros r Hr. specialize (H r Hr). destruct (part K A r); cbn in H; try tauto. eexists. reflexivity. }
      pose (h := fun r => match nonempty_columns K (part K A r) with Some nec => combine nec (map v nec) | None => [] end).
      rewrite (all_some_map _ h). 2:{ intros r Hr. apply in_seq in Hr. unfold distribute_vector, h. destruct (D r ltac:(lia)) as (nec & ->). reflexivity. }
      eexists. split; [reflexivity|]. intros i. unfold vtotal. rewrite <- matvec_total. apply bsum_ext. intros r Hr. apply in_seq in Hr.
      rewrite nth_map_seq by lia. cbn [Nat.add]. unfold h. destruct (D r ltac:(lia)) as (nec & E). rewrite E. apply csr_matvec; [apply H; lia|exact E].
  Qed.

  (** claim *)
  Lemma nodup_length (ls : list nat) : length (nodup Nat.eq_dec ls) = length ls <-> NoDup ls.
  Proof.
    split.
    - induction ls as [|x l IH]; intros E; [constructor|]. simpl in E. destruct (in_dec Nat.eq_dec x l) as [D|D].
      + exfalso. assert (length (nodup Nat.eq_dec l) <= length l)%nat. { apply NoDup_incl_length; [apply NoDup_nodup|]. intros y Hy. apply nodup_In in Hy. exact Hy. } lia.
      + simpl in E. constructor; [exact D|]. apply IH. lia.
    - intros N. rewrite nodup_fixed_point by exact N. reflexivity.
  Qed.
  Lemma NoDup_concat (ls : list (list nat)) : (forall l, In l ls -> NoDup l) ->
    (NoDup (concat ls) <-> forall r s x, (r < length ls)%nat -> (s < length ls)%nat -> In x (nth r ls []) -> In x (nth s ls []) -> r = s).
  Proof.
    induction ls as [|l ls IH]; intros ND; [split; [intros _ r s x H; simpl in H; lia|constructor]|].
    specialize (IH (fun m Hm => ND m (or_intror Hm))). cbn [concat]. split.
    - intros N r s x Hr Hs X Y. simpl in Hr, Hs. assert (NDi : forall y, In y l -> ~ In y (concat ls)).
      { intros y Hy Hc. clear -N Hy Hc. induction l as [|a l IHl]; [destruct Hy|]. simpl in N. inversion N; subst. destruct Hy as [<-|Hy]; [apply H1; apply in_or_app; right; exact Hc|apply IHl; assumption]. }
      assert (N2 : NoDup (concat ls)) by (clear -N; induction l; [exact N|simpl in N; inversion N; subst; auto]).
      destruct r as [|r], s as [|s]; [reflexivity| | |].
      + exfalso. apply (NDi x X). apply in_concat. exists (nth s ls []). split; [apply nth_In; lia|exact Y].
      + exfalso. apply (NDi x Y). apply in_concat. exists (nth r ls []). split; [apply nth_In; lia|exact X].
      + f_equal. apply (proj1 IH N2 r s x); [lia|lia|exact X|exact Y].
    - intros H. assert (N2 : NoDup (concat ls)).
      { apply IH. intros r s x Hr Hs X Y. assert (E : S r = S s) by (apply (H (S r) (S s) x); simpl; [lia|lia|exact X|exact Y]). lia. }
      assert (N1 : NoDup l) by (apply ND; left; reflexivity).
      assert (DJ : forall y, In y l -> ~ In y (concat ls)).
      { intros y Hy Hc. apply in_concat in Hc. destruct Hc as (m & Hm & Hym). destruct (In_nth _ _ [] Hm) as (s & Hs & E).
        assert (X : 0%nat = S s) by (apply (H 0%nat (S s) y); simpl; [lia|lia|exact Hy|rewrite E; exact Hym]). discriminate. }
      clear -N1 N2 DJ. induction l as [|a l IHl]; [exact N2|]. simpl. inversion N1; subst. constructor.
      + intros HI. apply in_app_or in HI. destruct HI as [HI|HI]; [contradiction|]. apply (DJ a (or_introl eq_refl) HI).
      + apply IHl; [assumption|]. intros y Hy. apply DJ. right. exact Hy.
  Qed.
  Lemma nonempty_lines_In lines i : In i (nonempty_lines K lines) <-> exists p, In p (nth i lines []).
  Proof.
    unfold nonempty_lines. rewrite filter_In, in_seq. split.
    - intros [_ H]. apply Nat.ltb_lt in H. destruct (nth i lines []) as [|p l]; [simpl in H; lia|]. exists p. left. reflexivity.
    - intros (p & Hp). split.
      + split; [lia|]. destruct (Nat.lt_ge_cases i (length lines)) as [G|G]; [lia|]. rewrite nth_overflow in Hp by exact G. destruct Hp.
      + apply Nat.ltb_lt. destruct (nth i lines []); [destruct Hp|simpl; lia].
  Qed.
  Lemma no_common_ok SIZE (p : nat -> sparse K) :
    no_common (map (fun r => nonempty_lines K (lines_of K (p r))) (seq 0 SIZE)) = true <->
    forall r s x, (r < SIZE)%nat -> (s < SIZE)%nat -> (exists u, In u (nth x (lines_of K (p r)) [])) -> (exists u, In u (nth x (lines_of K (p s)) [])) -> r = s.
  Proof.
    unfold no_common. rewrite Nat.eqb_eq, <- length_concat, nodup_length, NoDup_concat.
    2:{ intros l Hl. apply in_map_iff in Hl. destruct Hl as (r & <- & _). apply NoDup_filter, seq_NoDup. }
    rewrite map_length, seq_length. split; intros H r s x Hr Hs.
    - intros X Y. apply (H r s x Hr Hs); rewrite nth_map_seq by assumption; apply nonempty_lines_In; assumption.
    - rewrite !nth_map_seq by assumption. rewrite !nonempty_lines_In. apply H; assumption.
  Qed.
  Lemma claim_row SIZE A : (0 < SIZE)%nat ->
    (claim_distribution_pattern K SIZE A = Some RRow <->
     (forall r, (r < SIZE)%nat -> is_csr K (part K A r) = true) /\ disjoint_rows K SIZE (part K A)).
  Proof.
    intros HS. unfold claim_distribution_pattern, check_row_major.
    destruct (forallb (fun r => is_csr K (part K A r)) (seq 0 SIZE)) eqn:E.
    - assert (AC : forall r, (r < SIZE)%nat -> is_csr K (part K A r) = true).
      { rewrite forallb_forall in E. intros r Hr. apply E. apply in_seq. lia. }
      assert (ST : forall r i, (r < SIZE)%nat -> (exists u, In u (nth i (lines_of K (part K A r)) [])) <-> exists j, stored K (part K A r) i j).
      { intros r i Hr. specialize (AC r Hr). destruct (part K A r); try discriminate. cbn. split.
        - intros (u & Hu). exists (fst u). apply in_map. exact Hu.
        - intros (j & Hj). apply in_map_iff in Hj. destruct Hj as (u & _ & Hu). exists u. exact Hu. }
      destruct (no_common _) eqn:N.
      + pose proof (proj1 (no_common_ok SIZE (part K A)) N) as N'. split; [|reflexivity]. intros _. split; [exact AC|]. intros r s i j j' Hr Hs X Y. apply (N' r s i Hr Hs).
        * apply ST; [exact Hr|]. exists j. exact X.
        * apply ST; [exact Hs|]. exists j'. exact Y.
      + split.
        * destruct (check_col_major K SIZE A) as [v|]; [|discriminate]. destruct (as_cond v); discriminate.
        * intros [_ D]. exfalso. assert (X : no_common (map (fun r => nonempty_lines K (lines_of K (part K A r))) (seq 0 SIZE)) = true); [|congruence].
          apply no_common_ok. intros r s x Hr Hs HX HY. apply ST in HX; [|exact Hr]. apply ST in HY; [|exact Hs]. destruct HX as (j & HX), HY as (j' & HY). exact (D r s x j j' Hr Hs HX HY).
    - split.
      + destruct (forallb (fun r => negb _) _); [|discriminate]. destruct (check_col_major K SIZE A) as [v|]; [|discriminate]. destruct (as_cond v); discriminate.
      + intros [AC _]. exfalso. rewrite (proj2 (forallb_forall _ _)) in E; [discriminate|]. intros r Hr. apply in_seq in Hr. apply AC. lia.
  Qed.
  Lemma claim_column SIZE A : (0 < SIZE)%nat ->
    (claim_distribution_pattern K SIZE A = Some RColumn <-> forall r, (r < SIZE)%nat -> is_csc K (part K A r) = true).
  Proof.
    intros HS. unfold claim_distribution_pattern, check_row_major, check_col_major.
    destruct (forallb (fun r => is_csr K (part K A r)) (seq 0 SIZE)) eqn:E.
    - assert (AC : forall r, (r < SIZE)%nat -> is_csr K (part K A r) = true).
      { rewrite forallb_forall in E. intros r Hr. apply E. apply in_seq. lia. }
      split.
      + destruct (no_common _); [discriminate|]. destruct (forallb (fun r => is_csc K (part K A r)) (seq 0 SIZE)) eqn:F.
        * exfalso. rewrite forallb_forall in F. specialize (F 0%nat ltac:(apply in_seq; lia)). specialize (AC 0%nat HS). destruct (part K A 0); discriminate.
        * destruct (forallb (fun r => negb _) _); cbn; discriminate.
      + intros H. specialize (H 0%nat HS). specialize (AC 0%nat HS). destruct (part K A 0); discriminate.
    - destruct (forallb (fun r => negb (is_csr K (part K A r))) (seq 0 SIZE)) eqn:NR.
      + destruct (forallb (fun r => is_csc K (part K A r)) (seq 0 SIZE)) eqn:F.
        * cbn. split; [|reflexivity]. intros _ r Hr. rewrite forallb_forall in F. apply F. apply in_seq. lia.
        * split; [destruct (forallb (fun r => negb (is_csc _ _)) _); cbn; discriminate|]. intros H. exfalso.
          rewrite (proj2 (forallb_forall _ _)) in F; [discriminate|]. intros r Hr. apply in_seq in Hr. apply H. lia.
      + split; [discriminate|]. intros H. exfalso. rewrite (proj2 (forallb_forall _ _)) in NR; [discriminate|].
        intros r Hr. apply in_seq in Hr. specialize (H r ltac:(lia)). destruct (part K A r); [discriminate|discriminate|reflexivity].
  Qed.

  (** gathering a distributed vector *)
  Lemma put_spec c : forall (V : nat -> K) i, NoDup (map fst c) ->
    put K V c i = if existsb (Nat.eqb i) (map fst c) then centry K c i else V i.
  Proof.
    unfold put. induction c as [|p c IH]; intros V i N; [reflexivity|]. cbn [fold_left map existsb]. inversion N; subst. rewrite IH by assumption.
    unfold centry. rewrite bsum_cons. destruct (Nat.eqb_spec i (fst p)) as [->|D]; cbn [orb].
    - rewrite Nat.eqb_refl. destruct (existsb (Nat.eqb (fst p)) (map fst c)) eqn:E.
      + exfalso. apply existsb_exists in E. destruct E as (x & Hx & Ex). apply Nat.eqb_eq in Ex. subst x. contradiction.
      + rewrite bsum_0; [ring|]. intros q Hq. destruct (Nat.eqb_spec (fst q) (fst p)) as [Eq|]; [|reflexivity]. exfalso. apply H1. rewrite <- Eq. apply in_map. exact Hq.
    - destruct (existsb (Nat.eqb i) (map fst c)); [|reflexivity]. destruct (Nat.eqb_spec (fst p) i); [congruence|]. ring.
  Qed.
  Lemma centry_none (c : col K) i : existsb (Nat.eqb i) (map fst c) = false -> centry K c i = 0.
  Proof.
    intros E. apply bsum_0. intros q Hq. destruct (Nat.eqb_spec (fst q) i) as [Eq|]; [|reflexivity]. exfalso.
    assert (X : existsb (Nat.eqb i) (map fst c) = true); [|congruence]. apply existsb_exists. exists i. rewrite Nat.eqb_refl. split; [|reflexivity]. rewrite <- Eq. apply in_map. exact Hq.
  Qed.
  Lemma measure_one SIZE v i : (measure K SIZE v i <= 1)%nat -> forall r s, (r < SIZE)%nat -> (s < SIZE)%nat ->
    existsb (Nat.eqb i) (map fst (v r)) = true -> existsb (Nat.eqb i) (map fst (v s)) = true -> r = s.
  Proof.
    intros M r s Hr Hs X Y. unfold measure in M. 
    assert (Ir : In r (filter (fun r => existsb (Nat.eqb i) (map fst (v r))) (seq 0 SIZE))) by (apply filter_In; split; [apply in_seq; lia|exact X]).
    assert (Is : In s (filter (fun r => existsb (Nat.eqb i) (map fst (v r))) (seq 0 SIZE))) by (apply filter_In; split; [apply in_seq; lia|exact Y]).
    destruct (filter _ _) as [|a [|b l]]; [destruct Ir| |simpl in M; lia]. destruct Ir as [<-|[]], Is as [<-|[]]. reflexivity.
  Qed.
  Lemma fold_put : forall l (V : nat -> K) i, (forall c, In c l -> NoDup (map fst c)) ->
    (forall pre c post, l = pre ++ c :: post -> existsb (Nat.eqb i) (map fst c) = true -> V i = 0 /\ (forall d, In d pre \/ In d post -> existsb (Nat.eqb i) (map fst d) = false)) ->
    fold_left (put K) l V i = V i + bsum l (fun c => centry K c i).
  Proof.
    induction l as [|c l IH]; intros V i N H; [rewrite bsum_nil; simpl; ring|]. cbn [fold_left]. rewrite bsum_cons. rewrite IH.
    - rewrite put_spec by (apply N; left; reflexivity). destruct (existsb (Nat.eqb i) (map fst c)) eqn:E.
      + destruct (H [] c l eq_refl E) as [-> _]. ring.
      + rewrite (centry_none c i E). ring.
    - intros d Hd. apply N. right. exact Hd.
    - intros pre d post E Ed. destruct (H (c :: pre) d post ltac:(rewrite E; reflexivity) Ed) as [V0 O]. split.
      + rewrite put_spec by (apply N; left; reflexivity). rewrite (O c) by (left; left; reflexivity). exact V0.
      + intros e [He|He]; apply O; [left; right; exact He|right; exact He].
  Qed.
  Lemma gather_distributed_ok SIZE n core v : (0 < SIZE)%nat -> distributed_check K SIZE n v = true ->
    (forall r, (r < SIZE)%nat -> NoDup (map fst (v r))) ->
    (core = 0%nat \/ exists r, (0 < r < SIZE)%nat /\ v r <> []) ->
    forall i, (i < n)%nat -> gather_distributed K SIZE core v i = vtotal K SIZE (fun r => centry K (v r)) i.
  Proof.
    intros HS CK ND CO i Hi. unfold distributed_check in CK. apply andb_true_iff in CK. destruct CK as [_ CK]. rewrite forallb_forall in CK.
    specialize (CK i ltac:(apply in_seq; lia)). apply Nat.leb_le in CK. unfold gather_distributed, vtotal. destruct (vmaster K SIZE v) eqn:M.
    - unfold vmaster in M. rewrite forallb_forall in M. assert (E0 : forall r, (r < SIZE)%nat -> r <> 0%nat -> v r = []).
      { intros r Hr N. specialize (M r ltac:(apply in_seq; lia)). apply orb_true_iff in M. destruct M as [M|M]; apply Nat.eqb_eq in M; [contradiction|]. apply length_zero_iff_nil. exact M. }
      destruct CO as [->|(r & Hr & NE)]; [|exfalso; apply NE; apply E0; lia].
      symmetry. apply (bsum_only _ (seq 0 SIZE) 0%nat (fun r => centry K (v r) i)); [apply seq_NoDup|apply in_seq; lia|].
      intros r Hr N. apply in_seq in Hr. rewrite E0 by lia. reflexivity.
    - rewrite fold_put.
      + destruct SIZE as [|SIZE]; [lia|]. cbn [seq]. rewrite bsum_cons, bsum_map. replace (S SIZE - 1)%nat with SIZE by lia. reflexivity.
      + intros c Hc. apply in_map_iff in Hc. destruct Hc as (r & <- & Hr). apply in_seq in Hr. apply ND. lia.
      + intros pre c post E Ec.
        assert (POS : nth_error (map v (seq 1 (SIZE - 1))) (length pre) = Some c) by (rewrite E, nth_error_app2, Nat.sub_diag by lia; reflexivity).
        assert (AT : forall k d, nth_error (map v (seq 1 (SIZE - 1))) k = Some d -> d = v (S k) /\ (S k < SIZE)%nat).
        { intros k d Hk. assert (k < SIZE - 1)%nat by (rewrite <- (seq_length (SIZE - 1) 1), <- (map_length v); apply nth_error_Some; congruence).
          rewrite nth_error_map_seq in Hk. rewrite (proj2 (Nat.ltb_lt _ _)) in Hk by assumption. injection Hk as <-. split; [f_equal|lia]. }
        destruct (AT _ _ POS) as [-> HL]. split.
        * apply centry_none. destruct (existsb (Nat.eqb i) (map fst (v 0%nat))) eqn:E0; [|reflexivity]. exfalso.
          pose proof (measure_one SIZE v i CK 0%nat (S (length pre)) HS HL E0 Ec). lia.
        * intros d Hd. destruct (existsb (Nat.eqb i) (map fst d)) eqn:Ed; [|reflexivity]. exfalso. destruct Hd as [Hd|Hd]; apply In_nth_error in Hd; destruct Hd as (k & Hk).
          -- assert (Hl : (k < length pre)%nat) by (apply nth_error_Some; congruence).
             assert (X : nth_error (map v (seq 1 (SIZE - 1))) k = Some d) by (rewrite E, nth_error_app1 by exact Hl; exact Hk).
             destruct (AT _ _ X) as [-> HK]. pose proof (measure_one SIZE v i CK (S k) (S (length pre)) HK HL Ed Ec). lia.
          -- assert (X : nth_error (map v (seq 1 (SIZE - 1))) (length pre + S k) = Some d).
             { rewrite E, nth_error_app2 by lia. replace (length pre + S k - length pre)%nat with (S k) by lia. exact Hk. }
             destruct (AT _ _ X) as [-> HK]. pose proof (measure_one SIZE v i CK (S (length pre + S k)) (S (length pre)) HK HL Ed Ec). lia.
  Qed.
End P.
