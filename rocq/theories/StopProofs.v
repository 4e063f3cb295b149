(** Proofs about the stop criteria and the Newton loop. *)
From Coq Require Import List Arith ZArith QArith Bool Lia.
From Verif Require Import Prelude PreludeProofs RingSum StopModel StopSpec.
Import ListNotations.
Local Open Scope nat_scope.

Lemma Qltb_iff a b : Qltb a b = true <-> (a < b)%Q.
Proof.
  unfold Qltb. rewrite negb_true_iff. split; intros H.
  - apply Qnot_le_lt. intros C. apply Qle_bool_iff in C. congruence.
  - destruct (Qle_bool b a) eqn:E; [|reflexivity]. apply Qle_bool_iff in E. exfalso. exact (Qlt_not_le _ _ H E).
Qed.
Lemma flt_below b q : flt b (num q) = true <-> below b q.
Proof.
  unfold below, num. destruct b as [x|]; simpl.
  - rewrite Qltb_iff. split; [intros H; exists x; auto|]. intros (y & E & H). injection E as <-. exact H.
  - split; [discriminate|]. intros (y & E & _). discriminate.
Qed.
Lemma flt_above a b : flt b a = true <-> above a b.
Proof.
  unfold above. destruct a as [x|], b as [y|]; simpl; try (split; [discriminate|intros (u & v & E & F & _); discriminate]).
  rewrite Qltb_iff. split; [intros H; exists x, y; auto|]. intros (u & v & E & F & H). injection E as <-. injection F as <-. exact H.
Qed.

Lemma back_app1 l b : back 1 (l ++ [b]) = b.
Proof.
  unfold back. rewrite app_length. simpl.
  rewrite app_nth2; [|lia]. replace (length l + 1 - 1 - length l) with 0 by lia. reflexivity.
Qed.
Lemma back_app2 l b : 1 <= length l -> back 2 (l ++ [b]) = back 1 l.
Proof.
  intros H. unfold back. rewrite app_length. simpl. rewrite app_nth1; [|lia]. f_equal. lia.
Qed.
Lemma nth_skipn {A} (d : A) i n l : nth i (skipn n l) d = nth (n + i) l d.
Proof. revert l; induction n; intros [|a l]; simpl; auto; destruct i; reflexivity. Qed.
Lemma back_tail_of k j l : 1 <= k <= j -> j <= length l -> back k (tail_of j l) = back k l.
Proof.
  intros H1 H2. unfold back, tail_of. rewrite nth_skipn, skipn_length. f_equal. lia.
Qed.
Lemma back_app_r k l1 l2 : 1 <= k <= length l2 -> back k (l1 ++ l2) = back k l2.
Proof.
  intros H. unfold back. rewrite app_length, app_nth2; [|lia]. f_equal. lia.
Qed.

(** * the residual list of the linear solvers *)
Lemma Qcase (P Q0 R : bool) : (if P then true else if Q0 then true else if R then true else false) = P || Q0 || R.
Proof. destruct P, Q0, R; reflexivity. Qed.
Lemma remembered_step k : remembered (S k) = if 18 <? remembered k then 2 else S (remembered k).
Proof.
  unfold remembered. destruct (Nat.ltb_spec k 20) as [H|H].
  - destruct (Nat.ltb_spec (S k) 20); destruct (Nat.ltb_spec 18 k); try lia.
    replace (S k - 20) with 0 by lia. reflexivity.
  - destruct (Nat.ltb_spec (S k) 20); [lia|].
    pose proof (Nat.div_mod (k - 20) 18 ltac:(lia)) as D. pose proof (Nat.mod_upper_bound (k - 20) 18 ltac:(lia)) as U.
    set (q := (k - 20) / 18) in *. set (m := (k - 20) mod 18) in *.
    destruct (Nat.ltb_spec 18 (2 + m)).
    + rewrite <- (Nat.mod_unique (S k - 20) 18 (S q) 0); lia.
    + rewrite <- (Nat.mod_unique (S k - 20) 18 q (S m)); lia.
Qed.
Lemma remembered_le k : remembered k <= k.
Proof.
  unfold remembered. destruct (Nat.ltb_spec k 20); [lia|].
  pose proof (Nat.mod_upper_bound (k - 20) 18 ltac:(lia)). lia.
Qed.

Section Gmres.
  Variable beta : nat -> fl.
  Variables (tol atol : Q).

  (** the list after the push of iteration k *)
  Definition hist (k : nat) : list fl := beta 0 :: map beta (seq (k - remembered k) (S (remembered k))).
  Lemma hist_length k : length (hist k) = remembered k + 2.
  Proof. unfold hist. simpl. rewrite map_length, seq_length. lia. Qed.
  Lemma hist_back1 k : back 1 (hist k) = beta k.
  Proof.
    unfold hist. rewrite seq_S, map_app, app_comm_cons. pose proof (remembered_le k).
    replace (k - remembered k + remembered k) with k by lia. apply back_app1.
  Qed.
  Lemma hist_back2 k : back 2 (hist k) = beta (k - 1).
  Proof.
    unfold hist. rewrite seq_S, map_app, app_comm_cons. cbn [map]. rewrite back_app2 by (simpl; lia).
    destruct (remembered k) eqn:E.
    - assert (k = 0); [|subst; reflexivity].
      unfold remembered in E. destruct (Nat.ltb_spec k 20); lia.
    - pose proof (remembered_le k). rewrite seq_S, map_app, app_comm_cons. cbn [map]. rewrite back_app1. f_equal. lia.
  Qed.
  Lemma push_first : push_beta None (beta 0) = hist 0.
  Proof. reflexivity. Qed.
  Lemma push_next k : push_beta (Some (hist k)) (beta (S k)) = hist (S k).
  Proof.
    unfold push_beta. rewrite hist_length. unfold hist at 4. rewrite remembered_step. pose proof (remembered_le k) as L.
    destruct (Nat.ltb_spec 18 (remembered k)) as [H|H].
    - destruct (Nat.ltb_spec 20 (remembered k + 2)); [|lia].
      unfold tail_of. rewrite hist_length. replace (remembered k + 2 - 2) with (S (remembered k - 1)) by lia.
      unfold hist. cbn [firstn skipn app].
      rewrite skipn_map. replace (S (remembered k)) with ((remembered k - 1) + 2) by lia.
      rewrite seq_app, skipn_app, skipn_all2 by (rewrite seq_length; lia).
      rewrite seq_length, Nat.sub_diag. cbn [app skipn seq map].
      replace (k - remembered k + (remembered k - 1)) with (k - 1) by lia.
      replace (S k - 2) with (k - 1) by lia. replace (S (S (k - 1))) with (S k) by lia. reflexivity.
    - destruct (Nat.ltb_spec 20 (remembered k + 2)); [lia|].
      unfold hist. rewrite (seq_S (S (remembered k))), map_app. cbn [app map]. repeat f_equal; lia.
  Qed.

  Lemma judge_3_spec l : judge_3 l = true <-> diverges (back 2 l) (back 1 l).
  Proof.
    unfold judge_3, diverges. rewrite Qcase. destruct (back 2 l) as [x|], (back 1 l) as [y|]; simpl;
      try (split; [discriminate|intros (u & v & E1 & E2 & _); discriminate]).
    destruct (Qltb x y) eqn:E.
    - apply Qltb_iff in E. rewrite !orb_true_iff, andb_true_iff, !Qltb_iff. split.
      + intros H. exists x, y. repeat split; auto. tauto.
      + intros (u & v & E1 & E2 & _ & H). injection E1 as <-. injection E2 as <-. tauto.
    - split; [discriminate|]. intros (u & v & E1 & E2 & H & _). injection E1 as <-. injection E2 as <-.
      apply Qltb_iff in H. congruence.
  Qed.
  Lemma diverges_irrefl x : ~ diverges x x.
  Proof. intros (a & b & E1 & E2 & H & _). rewrite E1 in E2. injection E2 as <-. exact (Qlt_irrefl _ H). Qed.
  Lemma judge_4_spec l : judge_4 tol l = true <-> stalled (nth 0 l None) (back 1 l) tol.
  Proof.
    unfold judge_4, stalled. destruct (nth 0 l None) as [x|], (back 1 l) as [y|]; simpl;
      try (split; [discriminate|intros (u & v & E1 & E2 & _); discriminate]).
    destruct (Qltb y x) eqn:E.
    - destruct (Qeq_bool x 0) eqn:Z; simpl.
      + split; [discriminate|]. intros (u & v & E1 & E2 & _ & N & _). injection E1 as <-. apply Qeq_bool_iff in Z. contradiction.
      + rewrite Qltb_iff. apply Qltb_iff in E. split.
        * intros H. exists x, y. repeat split; auto. intros C. apply Qeq_bool_iff in C. congruence.
        * intros (u & v & E1 & E2 & _ & _ & H). injection E1 as <-. injection E2 as <-. exact H.
    - split; [discriminate|]. intros (u & v & E1 & E2 & H & _). injection E1 as <-. injection E2 as <-.
      apply Qltb_iff in H. congruence.
  Qed.

  Lemma Qsub_neg x y : Qltb (x - y) 0 = Qltb x y.
  Proof.
    apply eq_true_iff_eq. rewrite !Qltb_iff. split; intros H.
    - apply (Qplus_lt_l _ _ (- y)). setoid_replace (y + - y)%Q with 0%Q by ring. exact H.
    - apply (Qplus_lt_l _ _ y). setoid_replace (x - y + y)%Q with x by ring. setoid_replace (0 + y)%Q with y by ring. exact H.
  Qed.
  Lemma slow_one x y : (if flt (fsub x y) (num 0) then true else flt (fdiv (fsub x y) x) (num tol)) = slow_step tol x y.
  Proof.
    destruct x as [x|], y as [y|]; try reflexivity. unfold slow_step. simpl. rewrite Qsub_neg.
    destruct (Qltb x y); [reflexivity|]. simpl. destruct (Qeq_bool x 0); reflexivity.
  Qed.
  Lemma slow_list_map a w : slow_list tol (map beta (seq a (S w))) = map (fun t => slow_step tol (beta t) (beta (S t))) (seq a w).
  Proof.
    revert a. induction w; intros a; [reflexivity|].
    transitivity (slow_step tol (beta a) (beta (S a)) :: slow_list tol (map beta (seq (S a) (S w)))).
    - rewrite <- slow_one. reflexivity.
    - rewrite IHw. reflexivity.
  Qed.
  Lemma count_map {A} (f : A -> bool) (g : bool -> bool) l : length (filter g (map f l)) = length (filter (fun a => g (f a)) l).
  Proof. induction l; simpl; [reflexivity|]. destruct (g (f a)); simpl; auto. Qed.
  Lemma count_neg {A} (f : A -> bool) l : length (filter (fun a => negb (f a)) l) = length l - length (filter f l).
  Proof.
    assert (L : forall l', length (filter f l') <= length l') by (intros l'; induction l' as [|a' l' IH']; simpl; [lia|]; destruct (f a'); simpl; lia).
    induction l; [reflexivity|]. cbn [filter]. pose proof (L l).
    destruct (f a); cbn [negb length]; rewrite IHl; lia.
  Qed.
  Lemma checks k : 3 <= remembered k ->
    (if 10 <? length (hist k) then tail_of 8 (hist k) else tl (hist k)) = map beta (seq (k - window k) (S (window k))).
  Proof.
    intros H. rewrite hist_length. pose proof (remembered_le k). unfold window.
    destruct (Nat.ltb_spec 10 (remembered k + 2)); destruct (Nat.ltb_spec 8 (remembered k)); try lia.
    - unfold tail_of. rewrite hist_length. replace (remembered k + 2 - 8) with (S (remembered k - 7)) by lia.
      unfold hist. cbn [skipn]. rewrite skipn_map. replace (S (remembered k)) with ((remembered k - 7) + 8) by lia.
      rewrite seq_app, skipn_app, skipn_all2 by (rewrite seq_length; lia).
      rewrite seq_length, Nat.sub_diag. cbn [app skipn]. f_equal. f_equal. lia.
    - reflexivity.
  Qed.
  Lemma judge_5_spec k : judge_5 tol (hist k) = true <-> 3 <= remembered k /\ (3 <= slow_steps beta tol k \/ window k <= 2 * slow_steps beta tol k).
  Proof.
    unfold judge_5. destruct (Nat.leb_spec 5 (length (hist k))) as [H|H]; rewrite hist_length in H.
    - rewrite checks by lia. rewrite slow_list_map, !count_map. cbn [negb]. rewrite count_neg, seq_length.
      unfold slow_steps. change (filter (fun a => slow_step tol (beta a) (beta (S a)))) with (filter (fun t => slow_step tol (beta t) (beta (S t)))).
      set (c := length (filter (fun t => slow_step tol (beta t) (beta (S t))) (seq (k - window k) (window k)))).
      destruct (Nat.leb_spec 3 c); destruct (Nat.leb_spec (window k - c) c); split; try lia; try discriminate; auto.
    - split; [discriminate|lia].
  Qed.

  Lemma stop_cases n k : (tol < 1 # 100)%Q ->
    match gmres_stop tol atol k (MInt n) (hist k) with
    | VRaise => False
    | VStop j info => reason beta tol atol n k j /\ (forall j', j' < j -> ~ reason beta tol atol n k j') /\ info = info_of k j
    | VGo => forall j, ~ reason beta tol atol n k j
    end.
  Proof.
    intros HT. unfold gmres_stop.
    replace (Qltb tol (1 # 100)) with true by (symmetry; apply Qltb_iff, HT). cbn [negb].
    pose proof (flt_below (back 1 (hist k)) atol) as J1. rewrite hist_back1 in J1 |- *.
    pose proof (judge_3_spec (hist k)) as J3. rewrite hist_back1, hist_back2 in J3.
    pose proof (judge_4_spec (hist k)) as J4. rewrite hist_back1 in J4. change (nth 0 (hist k) None) with (beta 0) in J4.
    pose proof (judge_5_spec k) as J5.
    assert (P3 : judge_3 (hist k) = true <-> 0 < k /\ diverges (beta (k - 1)) (beta k)).
    { rewrite J3. split; [|tauto]. intros H. split; [|exact H]. destruct k; [|lia]. destruct (diverges_irrefl _ H). }
    assert (T : forall P : Prop, (false = true <-> P) -> ~ P) by (intros P E HP; apply E in HP; discriminate).
    assert (Z2 : (n <=? Z.of_nat k)%Z = true <-> (n <= Z.of_nat k)%Z) by apply Z.leb_le.
    destruct (flt (beta k) (num atol)) eqn:E1.
    { split; [apply J1; reflexivity|]. split; [|reflexivity]. intros [|j'] H; [intros []|lia]. }
    clear E1. pose proof (T _ J1) as E1.
    destruct (n <=? Z.of_nat k)%Z eqn:E2.
    { split; [apply Z2; reflexivity|]. split; [|reflexivity]. intros [|[|j']] H; simpl; auto; lia. }
    clear E2. pose proof (T _ Z2) as E2.
    destruct (judge_3 (hist k)) eqn:E3.
    { split; [apply P3; reflexivity|]. split; [|reflexivity]. intros [|[|[|j']]] H; simpl; auto; lia. }
    clear E3. pose proof (T _ P3) as E3.
    destruct (judge_4 tol (hist k)) eqn:E4.
    { split; [apply J4; reflexivity|]. split; [|reflexivity]. intros [|[|[|[|j']]]] H; [intros []|exact E1|exact E2|exact E3|lia]. }
    clear E4. pose proof (T _ J4) as E4.
    destruct (judge_5 tol (hist k)) eqn:E5.
    { split; [apply J5; reflexivity|]. split; [|reflexivity].
      intros [|[|[|[|[|j']]]]] H; [intros []|exact E1|exact E2|exact E3|exact E4|lia]. }
    clear E5. pose proof (T _ J5) as E5.
    intros [|[|[|[|[|[|j']]]]]]; [intros []|exact E1|exact E2|exact E3|exact E4|exact E5|intros []].
  Qed.

  Definition before (k : nat) : option (list fl) := match k with O => None | S q => Some (hist q) end.
  Lemma push_before k : push_beta (before k) (beta k) = hist k.
  Proof. destruct k; [apply push_first|apply push_next]. Qed.

  Lemma outer_int n : (tol < 1 # 100)%Q -> forall fuel k, (forall k' j', k' < k -> ~ reason beta tol atol n k' j') ->
    Z.to_nat n - k < fuel ->
    exists i j info, outer fuel beta tol atol (MInt n) k (before k) = Done i j info /\ stops_at beta tol atol n i j info.
  Proof.
    intros HT fuel. induction fuel; intros k HN HF; [lia|].
    cbn [outer]. rewrite push_before. pose proof (stop_cases n k HT) as C.
    destruct (gmres_stop tol atol k (MInt n) (hist k)) as [| |j info].
    - destruct C.
    - change (Some (hist k)) with (before (S k)). apply IHfuel.
      + intros k' j' L. destruct (Nat.eq_dec k' k) as [-> | ]; [apply C|apply HN; lia].
      + pose proof (C 2) as C2. simpl in C2. lia.
    - exists k, j, info. split; [reflexivity|]. destruct C as (C1 & C2 & C3). repeat split; auto.
  Qed.
  Lemma solve_int n fuel : (tol < 1 # 100)%Q -> Z.to_nat n < fuel ->
    exists i j info, solve fuel beta tol atol (MInt n) = Done i j info /\ stops_at beta tol atol n i j info /\ i <= Z.to_nat n.
  Proof.
    intros HT HF. destruct (outer_int n HT fuel 0) as (i & j & info & E & M); [lia|lia|].
    exists i, j, info. split; [exact E|]. split; [exact M|].
    destruct M as (_ & _ & _ & M). destruct (le_lt_dec i (Z.to_nat n)) as [L|L]; [exact L|].
    destruct (M (Z.to_nat n) 2 L). simpl. lia.
  Qed.
  Lemma solve_large_tol n fuel : ~ (tol < 1 # 100)%Q -> 0 < fuel -> solve fuel beta tol atol (MInt n) = Raised.
  Proof.
    intros H HF. destruct fuel; [lia|]. unfold solve. cbn [outer gmres_stop].
    destruct (Qltb tol (1 # 100)) eqn:E; [apply Qltb_iff in E; contradiction|]. reflexivity.
  Qed.

  Lemma outer_str n : forall fuel k BETA, k <= Z.to_nat n -> Z.to_nat n - k < fuel ->
    outer fuel beta tol atol (MStr n) k BETA = Done (Z.to_nat n) 2 (Z.of_nat (Z.to_nat n)).
  Proof.
    intros fuel. induction fuel; intros k BETA HK HF; [lia|]. cbn [outer gmres_stop].
    destruct (Z.leb_spec n (Z.of_nat k)) as [E|E].
    - replace k with (Z.to_nat n) by lia. reflexivity.
    - apply IHfuel; lia.
  Qed.
  Lemma solve_str n fuel : Z.to_nat n < fuel -> solve fuel beta tol atol (MStr n) = Done (Z.to_nat n) 2 (Z.of_nat (Z.to_nat n)).
  Proof. intros H. apply outer_str; lia. Qed.
End Gmres.

(** * Newton *)
Lemma nls_push_ok l b : nth 0 (nls_push l b) None = nth 0 (l ++ [b]) None /\ back 1 (nls_push l b) = b /\
  (1 <= length l -> back 2 (nls_push l b) = back 1 l) /\ (length l = 0 -> length (nls_push l b) = 1) /\ 1 <= length (nls_push l b).
Proof.
  unfold nls_push. destruct (Nat.ltb_spec 10 (length (l ++ [b]))) as [H|H].
  - assert (HL : 10 < length l + 1) by (rewrite app_length in H; exact H).
    split; [reflexivity|]. split.
    { rewrite back_app_r by (unfold tail_of; rewrite skipn_length; lia).
      rewrite back_tail_of by lia. apply back_app1. }
    split.
    { intros _. rewrite back_app_r by (unfold tail_of; rewrite skipn_length; lia).
      rewrite back_tail_of by lia. apply back_app2. lia. }
    split; [lia|]. rewrite app_length. simpl. lia.
  - split; [reflexivity|]. split; [apply back_app1|]. split; [apply back_app2|].
    rewrite app_length. simpl. split; lia.
Qed.

Section NewtonProofs.
  Variable K : CRing.
  Variable correction : vec K -> list nat -> vec K.
  Variable norm : vec K -> fl.
  Variable cs : list (cust K).
  Variable x0 : vec K.
  Let fixed := no_eval K cs.
  Let start := guesses K cs x0.
  Let it := iterate K correction fixed x0 start.
  Let dx := step_of K correction fixed x0 start.

  Let nrm := fun k => norm (dx k).
  Definition nls_hist (k : nat) (BETA : list fl) : Prop :=
    (k = 0 /\ length BETA = 0) \/ (0 < k /\ 1 <= length BETA /\ back 1 BETA = norm (dx (k - 1))).
  Definition xi_at (k : nat) : vec K := match k with O => x0 | _ => it k end.

  Lemma dx_at k : newton_dx K correction cs (xi_at k) = dx k.
  Proof. destruct k; reflexivity. Qed.
  Lemma it_next k : vadd K (newton_base K cs (S k) (xi_at k)) (newton_dx K correction cs (xi_at k)) = it (S k).
  Proof. destruct k; reflexivity. Qed.

  Lemma nls_hist_push k BETA : nls_hist k BETA -> nls_hist (S k) (nls_push BETA (norm (dx k))) /\
    back 1 (nls_push BETA (norm (dx k))) = norm (dx k) /\
    (1 < length (nls_push BETA (norm (dx k))) -> 0 < k /\ back 2 (nls_push BETA (norm (dx k))) = norm (dx (k - 1))).
  Proof.
    intros H. destruct (nls_push_ok BETA (norm (dx k))) as (_ & B & C & D & E). split; [|split].
    - right. replace (S k - 1) with k by lia. repeat split; auto; lia.
    - exact B.
    - intros L. destruct H as [(-> & H)|(H1 & H2 & H3)].
      + rewrite (D H) in L. lia.
      + split; [lia|]. rewrite (C H2). exact H3.
  Qed.

  Lemma Qcase4 (P Q0 R T : bool) : (if P then true else if Q0 then true else if R then true else if T then true else false) = P || Q0 || R || T.
  Proof. destruct P, Q0, R, T; reflexivity. Qed.
  Lemma nls_judge_3_spec l : nls_judge_3 l = true <-> 1 < length l /\ newton_diverges (back 2 l) (back 1 l).
  Proof.
    unfold nls_judge_3, newton_diverges. rewrite Qcase4.
    destruct (Nat.ltb_spec 1 (length l)) as [L|L]; [|split; [discriminate|lia]].
    cbn [andb]. destruct (back 2 l) as [x|], (back 1 l) as [y|]; simpl;
      try (split; [discriminate|intros (_ & u & v & E1 & E2 & _); discriminate]).
    destruct (Qltb x y) eqn:E.
    - apply Qltb_iff in E. rewrite !orb_true_iff, andb_true_iff, !Qltb_iff. split.
      + intros H. split; [exact L|]. exists x, y. repeat split; auto. tauto.
      + intros (_ & u & v & E1 & E2 & _ & H). injection E1 as <-. injection E2 as <-. tauto.
    - split; [discriminate|]. intros (_ & u & v & E1 & E2 & H & _). injection E1 as <-. injection E2 as <-.
      apply Qltb_iff in H. congruence.
  Qed.

  Lemma nls_cases n atol k BETA : nls_hist k BETA ->
    match nls_stop (nls_push BETA (norm (dx k))) atol (S k) (MInt n) with
    | VRaise => False
    | VStop j info => newton_reason nrm atol n (S k) j /\ (forall j', j' < j -> ~ newton_reason nrm atol n (S k) j') /\ info = info_of (S k) j
    | VGo => forall j, ~ newton_reason nrm atol n (S k) j
    end.
  Proof.
    intros H. destruct (nls_hist_push k BETA H) as (_ & B & C). set (l := nls_push BETA (norm (dx k))) in *.
    unfold nls_stop. pose proof (flt_below (back 1 l) atol) as J1. rewrite B in J1 |- *.
    assert (T : forall P : Prop, (false = true <-> P) -> ~ P) by (intros P E HP; apply E in HP; discriminate).
    assert (R1 : newton_reason nrm atol n (S k) 1 <-> below (norm (dx k)) atol).
    { unfold newton_reason, nrm. replace (S k - 1) with k by lia. reflexivity. }
    assert (Z2 : (n <=? Z.of_nat (S k))%Z = true <-> newton_reason nrm atol n (S k) 2) by (unfold newton_reason; apply Z.leb_le).
    assert (P3 : nls_judge_3 l = true <-> newton_reason nrm atol n (S k) 3).
    { rewrite nls_judge_3_spec. unfold newton_reason, nrm. replace (S k - 1) with k by lia. replace (S k - 2) with (k - 1) by lia.
      rewrite B. split.
      - intros (L & D). destruct (C L) as (C1 & C2). rewrite C2 in D. split; [lia|exact D].
      - intros (L & D). destruct H as [(H1 & _)|(H1 & H2 & H3)]; [lia|].
        destruct (nls_push_ok BETA (norm (dx k))) as (_ & _ & C2 & _). fold l in C2. rewrite (C2 H2), H3. split; [|exact D].
        unfold l, nls_push. destruct (10 <? length (BETA ++ [norm (dx k)])) eqn:E; rewrite app_length; simpl; [|lia].
        unfold tail_of. rewrite skipn_length, app_length. simpl. lia. }
    rewrite <- R1 in J1.
    destruct (flt (norm (dx k)) (num atol)) eqn:E1.
    { split; [apply J1; reflexivity|]. split; [|reflexivity]. intros [|j'] L; [intros []|lia]. }
    clear E1. pose proof (T _ J1) as E1.
    destruct (n <=? Z.of_nat (S k))%Z eqn:E2.
    { split; [apply Z2; reflexivity|]. split; [|reflexivity]. intros [|[|j']] L; [intros []|exact E1|lia]. }
    clear E2. pose proof (T _ Z2) as E2.
    destruct (nls_judge_3 l) eqn:E3.
    { split; [apply P3; reflexivity|]. split; [|reflexivity]. intros [|[|[|j']]] L; [intros []|exact E1|exact E2|lia]. }
    clear E3. pose proof (T _ P3) as E3.
    intros [|[|[|[|j']]]]; [intros []|exact E1|exact E2|exact E3|intros []].
  Qed.

  Lemma newton_int n atol : forall fuel k BETA, nls_hist k BETA -> (forall k' j', 1 <= k' <= k -> ~ newton_reason nrm atol n k' j') ->
    Z.to_nat n - k <= fuel -> 0 < fuel ->
    exists i info, newton K correction norm fuel cs atol (MInt n) k (xi_at k) BETA = NDone K (it i) info (norm (dx (i - 1))) i /\
      1 <= i /\ newton_stops_at nrm atol n i info.
  Proof.
    intros fuel. induction fuel; intros k BETA HH HN HF HP; [lia|].
    cbn [newton]. rewrite it_next, dx_at. pose proof (nls_cases n atol k BETA HH) as C.
    destruct (nls_hist_push k BETA HH) as (H' & B & _).
    destruct (nls_stop (nls_push BETA (norm (dx k))) atol (S k) (MInt n)) as [| |j info].
    - destruct C.
    - change (it (S k)) with (xi_at (S k)). pose proof (C 2) as C2. unfold newton_reason in C2.
      destruct (IHfuel (S k) _ H') as (i & info & E & L & M); [|lia|lia|].
      { intros k' j' L. destruct (Nat.eq_dec k' (S k)) as [-> | ]; [apply C|apply HN; lia]. }
      exists i, info. auto.
    - rewrite B. exists (S k), info. replace (S k - 1) with k by lia. split; [reflexivity|]. split; [lia|].
      exists j. destruct C as (C1 & C2 & C3). repeat split; auto. intros k' j' L. apply HN. lia.
  Qed.

  Lemma newton_str n atol : forall fuel k BETA, k < Z.to_nat n -> Z.to_nat n - k <= fuel ->
    newton K correction norm fuel cs atol (MStr n) k (xi_at k) BETA =
      NDone K (it (Z.to_nat n)) n (norm (dx (Z.to_nat n - 1))) (Z.to_nat n).
  Proof.
    intros fuel. induction fuel; intros k BETA HK HF; [lia|].
    cbn [newton]. rewrite it_next, dx_at. unfold nls_stop.
    destruct (Z.leb_spec n (Z.of_nat (S k))) as [E|E].
    - destruct (nls_push_ok BETA (norm (dx k))) as (_ & B & _). rewrite B.
      assert (EN : Z.to_nat n = S k) by lia. rewrite EN. f_equal; [lia|f_equal; f_equal; lia].
    - change (it (S k)) with (xi_at (S k)). apply IHfuel; lia.
  Qed.

  Lemma newton_ok n atol fuel : (1 <= n)%Z -> Z.to_nat n <= fuel ->
    exists i info, newton_raphson K correction norm fuel cs atol (MInt n) x0 = NDone K (it i) info (norm (dx (i - 1))) i /\
      1 <= i <= Z.to_nat n /\ newton_stops_at nrm atol n i info.
  Proof.
    intros H1 H2. destruct (newton_int n atol fuel 0 []) as (i & info & E & L & M); [left; auto|lia|lia|lia|].
    exists i, info. split; [exact E|]. split; [split; [lia|]|exact M].
    destruct (le_lt_dec i (Z.to_nat n)) as [G|G]; [exact G|]. destruct M as (j & _ & _ & _ & M).
    destruct (M (Z.to_nat n) 2 ltac:(lia)). simpl. lia.
  Qed.
  Lemma newton_forced n atol fuel : (1 <= n)%Z -> Z.to_nat n <= fuel ->
    newton_raphson K correction norm fuel cs atol (MStr n) x0 =
      NDone K (it (Z.to_nat n)) n (norm (dx (Z.to_nat n - 1))) (Z.to_nat n).
  Proof. intros H1 H2. apply (newton_str n atol fuel 0 []); lia. Qed.
End NewtonProofs.

Lemma guesses_prescribed K cs : forall x i, guesses K cs x i = prescribed K cs i (x i).
Proof.
  induction cs as [|c cs IH]; intros x i; [reflexivity|]. unfold guesses in *. simpl. rewrite IH.
  destruct c; reflexivity.
Qed.
Lemma iterate_fixed K correction fixed first start i :
  (forall x l d, In d l -> correction x l d = r0) -> In i fixed ->
  forall k, iterate K correction fixed first start k i = start i.
Proof.
  intros HC HI. induction k; [reflexivity|]. cbn [iterate]. unfold vadd. rewrite IHk, HC by exact HI.
  pose proof (Radd_comm (Rth K)) as C. pose proof (Radd_0_l (Rth K)) as Z. rewrite C. apply Z.
Qed.

Lemma newton_run K correction norm cs x0 atol mx : forall fuel k BETA x info beta ITER,
  newton K correction norm fuel cs atol mx k (xi_at K correction cs x0 k) BETA = NDone K x info beta ITER ->
  exists q, x = iterate K correction (no_eval K cs) x0 (guesses K cs x0) q.
Proof.
  intros fuel. induction fuel; intros k BETA x info beta ITER E; [discriminate|].
  cbn [newton] in E. rewrite it_next in E.
  destruct (nls_stop _ _ _ _) as [| |j inf] in E.
  - exact (IHfuel (S k) _ _ _ _ _ E).
  - exact (IHfuel (S k) _ _ _ _ _ E).
  - injection E as <- _ _ _. exists (S k). reflexivity.
Qed.
Lemma newton_fixed (K : CRing) correction norm cs x0 mx atol fuel x info beta ITER i :
  (forall y l d, In d l -> correction y l d = r0) -> In i (no_eval K cs) ->
  newton_raphson K correction norm fuel cs atol mx x0 = NDone K x info beta ITER ->
  x i = prescribed K cs i (x0 i).
Proof.
  intros HC HI E. apply (newton_run K correction norm cs x0 atol mx fuel 0) in E. destruct E as (q & ->).
  rewrite (iterate_fixed K correction) by assumption. apply guesses_prescribed.
Qed.
Lemma newton_info K correction norm cs x0 n atol fuel x info beta i : (1 <= n)%Z -> Z.to_nat n <= fuel ->
  newton_raphson K correction norm fuel cs atol (MInt n) x0 = NDone K x info beta i ->
  (info = 0%Z <-> below beta atol) /\ (0 < info -> info = Z.of_nat i /\ i = Z.to_nat n)%Z.
Proof.
  intros H1 H2 E. destruct (newton_ok K correction norm cs x0 n atol fuel H1 H2) as (q & inf & E' & B & j & R & F & I & _).
  rewrite E' in E. injection E as _ <- <- <-. subst inf.
  assert (R2 : newton_reason (fun k => norm (step_of K correction (no_eval K cs) x0 (guesses K cs x0) k)) atol n q j) by exact R.
  destruct j as [|[|[|[|j]]]]; try (destruct R; fail).
  - simpl. split; [|lia]. split; [intros _; exact R|reflexivity].
  - simpl. split; [split|].
    + lia.
    + intros C. destruct (F 1 ltac:(lia)). exact C.
    + simpl in R. lia.
  - simpl. split; [|lia]. split; [lia|]. intros C. destruct (F 1 ltac:(lia)). exact C.
Qed.
