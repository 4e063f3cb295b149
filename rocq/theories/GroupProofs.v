From Coq Require Import List Arith ZArith Lia Bool.
From Coq Require Import ZifyBool.
From Verif Require Import Prelude PreludeProofs GroupModel.
Import ListNotations.

Lemma prefix_num_cores S g i : g <> 0 -> i <= g ->
  sum (firstn i (num_cores S g)) = i * (S / g) + Nat.min i (S mod g).
Proof.
  intros Hg Hi. unfold num_cores. rewrite firstn_map_seq by assumption.
  induction i as [|i IH]; [reflexivity|].
  rewrite sum_map_seq_S, IH by lia. simpl (0 + i).
  change (Datatypes.S i * (S / g)) with (S / g + i * (S / g)).
  generalize (S / g) (S mod g) (i * (S / g)). intros q r t.
  destruct (Nat.ltb_spec i r); lia.
Qed.

Lemma total_num_cores S g : g <> 0 -> sum (firstn g (num_cores S g)) = S.
Proof.
  intros Hg. rewrite prefix_num_cores by lia.
  assert (S mod g < g) by (apply Nat.mod_upper_bound; assumption).
  rewrite Nat.min_r by lia. symmetry. apply Nat.div_mod. assumption.
Qed.

Lemma length_num_cores S g : length (num_cores S g) = g.
Proof. unfold num_cores. rewrite map_length, seq_length. reflexivity. Qed.

Lemma group_nth_len S g i : g <> 0 -> i < g ->
  sum (firstn (i + 1) (num_cores S g)) - sum (firstn i (num_cores S g))
  = S / g + (if i <? S mod g then 1 else 0).
Proof.
  intros Hg Hi. rewrite !prefix_num_cores by lia. rewrite Nat.mul_add_distr_r.
  generalize (S / g) (S mod g) (i * (S / g)). intros q r t.
  destruct (Nat.ltb_spec i r); lia.
Qed.

Lemma concat_groups_prefix S g n : g <> 0 -> n <= g ->
  concat (map (fun i => range (sum (firstn i (num_cores S g))) (sum (firstn (i + 1) (num_cores S g)))) (seq 0 n))
  = range 0 (sum (firstn n (num_cores S g))).
Proof.
  intros Hg. induction n as [|n IH]; intros Hn; [reflexivity|].
  rewrite seq_S, map_app, concat_app, IH by lia. simpl concat. rewrite app_nil_r.
  rewrite Nat.add_1_r. simpl (0 + n). rewrite range_app; [reflexivity|lia|].
  apply sum_firstn_le. lia.
Qed.

Lemma concat_groups S g : g <> 0 -> concat (groups S g) = seq 0 S.
Proof.
  intros Hg. unfold groups. rewrite concat_groups_prefix by lia.
  rewrite total_num_cores by assumption. unfold range. f_equal. lia.
Qed.

Lemma groups_block S g b : g <> 0 -> In b (groups S g) ->
  S / g <= length b <= S / g + 1.
Proof.
  intros Hg Hb. unfold groups in Hb. apply in_map_iff in Hb.
  destruct Hb as (i & <- & Hi). apply in_seq in Hi.
  rewrite length_range. rewrite group_nth_len by lia.
  destruct (i <? S mod g); lia.
Qed.

Lemma groups_block_ceil S g b : g <> 0 -> In b (groups S g) -> length b <= (S + g - 1) / g.
Proof.
  intros Hg Hb. unfold groups in Hb. apply in_map_iff in Hb.
  destruct Hb as (i & <- & Hi). apply in_seq in Hi.
  rewrite length_range. rewrite group_nth_len by lia.
  destruct (Nat.ltb_spec i (S mod g)).
  - replace (S / g + 1) with ((S / g * g + g) / g).
    + apply Nat.div_le_mono; [lia|].
      pose proof (Nat.div_mod S g Hg). nia.
    + rewrite Nat.div_add_l by lia. rewrite Nat.div_same by lia. reflexivity.
  - rewrite Nat.add_0_r. apply Nat.div_le_mono; lia.
Qed.

Lemma groups_nonempty S g b : g <> 0 -> g <= S -> In b (groups S g) -> b <> [].
Proof.
  intros Hg HS Hb ->. apply groups_block in Hb; [|assumption].
  assert (1 <= S / g) by (apply Nat.div_le_lower_bound; lia). simpl in Hb. lia.
Qed.

Lemma length_groups S g : length (groups S g) = g.
Proof. unfold groups. rewrite map_length, seq_length. reflexivity. Qed.

Lemma last_groups S g : g <> 0 -> g <= S ->
  exists a, a < S /\ last (groups S g) [] = range a S.
Proof.
  intros Hg HS. destruct g as [|g]; [lia|].
  exists (sum (firstn g (num_cores S (Datatypes.S g)))).
  pose proof (total_num_cores S (Datatypes.S g)) as HT.
  split.
  - assert (S / Datatypes.S g >= 1) by (apply Nat.div_le_lower_bound; lia).
    pose proof (group_nth_len S (Datatypes.S g) g) as HL.
    rewrite Nat.add_1_r in HL. lia.
  - unfold groups. rewrite seq_S, map_app. simpl map. rewrite last_last.
    rewrite Nat.add_1_r. rewrite HT by lia. reflexivity.
Qed.

Lemma maxl_range a b : a < b -> maxl (range a b) = b - 1.
Proof.
  intros H. apply Nat.le_antisymm.
  - apply maxl_le. intros x Hx. apply in_range in Hx. lia.
  - apply maxl_in. apply in_range. lia.
Qed.

(** What fill_DG computes on non-empty groups. *)
Definition block_of (p : nat * list nat) : list nat := fst p :: snd p.

Lemma fill_DG_spec RANK gs dg :
  (forall b, In b gs -> b <> []) ->
  exists dg', fill_DG RANK gs dg = Some dg' /\
    group_number dg' = group_number dg /\
    map block_of (members_of dg') = map block_of (members_of dg) ++ gs /\
    leaders dg' = leaders dg ++ map (hd 0) gs /\
    ((my_leader dg' = my_leader dg /\ forall b, In b gs -> ~ In RANK b) \/
     exists b, In b gs /\ In RANK b /\ my_leader dg' = Some (hd 0 b)).
Proof.
  revert dg. induction gs as [|g gs IH]; intros dg H.
  - exists dg. rewrite !app_nil_r. repeat split; auto.
  - destruct g as [|l rest]; [exfalso; apply (H []); [left; reflexivity|reflexivity]|].
    simpl fill_DG.
    edestruct IH as (dg' & E & H1 & H2 & H3 & H4).
    { intros b Hb. apply H. right. assumption. }
    exists dg'. split; [exact E|]. split; [exact H1|].
    split. { rewrite H2. simpl. rewrite map_app, <- app_assoc. reflexivity. }
    split. { rewrite H3. simpl. rewrite <- app_assoc. reflexivity. }
    destruct H4 as [(H4 & H5)|(b & Hb & HR & H4)].
    + simpl in H4.
      destruct ((RANK =? l) || existsb (Nat.eqb RANK) rest)%bool eqn:EX.
      * right. exists (l :: rest). split; [left; reflexivity|]. split; [|exact H4].
        apply orb_true_iff in EX. destruct EX as [EX|EX].
        -- left. apply Nat.eqb_eq in EX. congruence.
        -- right. apply existsb_exists in EX. destruct EX as (x & Hx & Ex).
           apply Nat.eqb_eq in Ex. subst. assumption.
      * left. split; [exact H4|]. intros b [<-|Hb]; [|apply H5; assumption].
        intros HI. apply orb_false_iff in EX. destruct EX as (EX1 & EX2).
        destruct HI as [->|HI]; [rewrite Nat.eqb_refl in EX1; discriminate|].
        assert (existsb (Nat.eqb RANK) rest = true); [|congruence].
        apply existsb_exists. exists RANK. split; [assumption|apply Nat.eqb_refl].
    + right. exists b. split; [right; assumption|]. auto.
Qed.

Lemma ceil_div_facts S m : 1 <= m -> m <= S ->
  let g := (S + m - 1) / m in 1 <= g <= S /\ (S + g - 1) / g <= m.
Proof.
  intros Hm HS g. subst g.
  assert (E : exists q r, S + m - 1 = m * q + r /\ r < m).
  { exists ((S + m - 1) / m), ((S + m - 1) mod m). split.
    - apply Nat.div_mod. lia.
    - apply Nat.mod_upper_bound. lia. }
  destruct E as (q & r & E & Hr).
  assert (Q : (S + m - 1) / m = q). { symmetry. apply Nat.div_unique with r; lia. }
  rewrite Q.
  assert (1 <= q) by nia.
  assert (q <= S) by nia.
  split; [lia|].
  apply Nat.lt_succ_r. apply Nat.div_lt_upper_bound; [lia|]. nia.
Qed.

Lemma derived_bounds S m : 1 <= S -> 1 <= derived_group_num S m <= S.
Proof.
  intros HS. unfold derived_group_num.
  destruct (Nat.eqb_spec S 1); [lia|].
  match goal with |- context [(S + ?M - 1) / ?M] => set (mm := M) end.
  assert (1 <= mm <= S).
  { subst mm. destruct (Z.ltb_spec (Z.of_nat S) m); [lia|].
    destruct (Z.leb_spec m 1); lia. }
  destruct (ceil_div_facts S mm) as [? ?]; lia.
Qed.

Lemma derived_cap S m : 1 <= S -> forall g, g = derived_group_num S m ->
  (S + g - 1) / g <= Z.to_nat (Z.max 1 m).
Proof.
  intros HS g. unfold derived_group_num.
  destruct (Nat.eqb_spec S 1) as [->|Hne]. { intros ->. simpl. lia. }
  match goal with |- context [(S + ?M - 1) / ?M] => set (mm := M) end.
  assert (1 <= mm <= S /\ mm <= Z.to_nat (Z.max 1 m)).
  { subst mm. destruct (Z.ltb_spec (Z.of_nat S) m); [lia|].
    destruct (Z.leb_spec m 1); lia. }
  intros ->. destruct (ceil_div_facts S mm) as [? ?]; lia.
Qed.

Definition chosen (S : nat) (m : Z) (g : option Z) : Z :=
  match g with None => Z.of_nat (derived_group_num S m) | Some g => g end.

Lemma group_cores_ok S R m g :
  R < S -> (1 <= chosen S m g <= Z.of_nat S)%Z ->
  exists dg, GROUP_CORES S R m g = Some dg /\
    group_number dg = Z.to_nat (chosen S m g) /\
    map block_of (members_of dg) = groups S (Z.to_nat (chosen S m g)) /\
    leaders dg = map fst (members_of dg) /\
    exists b, In b (map block_of (members_of dg)) /\ In R b /\ my_leader dg = Some (hd 0 b).
Proof.
  intros HR Hg. unfold GROUP_CORES. fold (chosen S m g).
  set (c := chosen S m g) in *.
  replace ((1 <=? c) && (c <=? Z.of_nat S))%Z with true by lia.
  assert (Hc : Z.to_nat c <> 0) by lia. assert (Hc' : Z.to_nat c <= S) by lia.
  destruct (last_groups S (Z.to_nat c) Hc Hc') as (a & Ha & EL). rewrite EL.
  destruct (range a S) as [|x xs] eqn:ER.
  { exfalso. assert (In a (range a S)) by (apply in_range; lia). rewrite ER in *. contradiction. }
  rewrite <- ER. rewrite maxl_range by assumption. rewrite Nat.eqb_refl.
  edestruct (fill_DG_spec R (groups S (Z.to_nat c))) as (dg & E & H1 & H2 & H3 & H4).
  { intros b Hb. apply (groups_nonempty S (Z.to_nat c)); assumption. }
  rewrite E. exists dg. split; [reflexivity|].
  split. { rewrite H1. simpl. apply length_groups. }
  simpl in H2. split; [exact H2|].
  split.
  { rewrite H3. simpl. rewrite <- H2. rewrite map_map. reflexivity. }
  rewrite H2.
  destruct H4 as [(_ & H4)|H4].
  - exfalso. assert (HI : In R (concat (groups S (Z.to_nat c)))).
    { rewrite concat_groups by assumption. apply in_seq. lia. }
    apply in_concat in HI. destruct HI as (b & Hb & HRb). exact (H4 b Hb HRb).
  - exact H4.
Qed.

Lemma group_cores_none S R m g :
  ~ (1 <= chosen S m g <= Z.of_nat S)%Z -> GROUP_CORES S R m g = None.
Proof.
  intros H. unfold GROUP_CORES. fold (chosen S m g).
  replace ((1 <=? chosen S m g) && (chosen S m g <=? Z.of_nat S))%Z with false by lia.
  reflexivity.
Qed.

Lemma same_members S R1 R2 m g dg1 dg2 : R1 < S -> R2 < S ->
  GROUP_CORES S R1 m g = Some dg1 -> GROUP_CORES S R2 m g = Some dg2 ->
  members_of dg1 = members_of dg2 /\ leaders dg1 = leaders dg2.
Proof.
  intros H1 H2 E1 E2.
  destruct (Z_le_dec 1 (chosen S m g)) as [A|A];
  [destruct (Z_le_dec (chosen S m g) (Z.of_nat S)) as [B|B]|].
  2,3: rewrite group_cores_none in E1 by lia; discriminate.
  destruct (group_cores_ok S R1 m g H1 (conj A B)) as (d1 & F1 & _ & G1 & L1 & _).
  destruct (group_cores_ok S R2 m g H2 (conj A B)) as (d2 & F2 & _ & G2 & L2 & _).
  rewrite F1 in E1. injection E1 as <-. rewrite F2 in E2. injection E2 as <-.
  assert (members_of d1 = members_of d2); [|split; congruence].
  rewrite <- G2 in G1. clear - G1.
  revert G1. generalize (members_of d1) (members_of d2).
  induction l as [|[a b] l IH]; intros [|[c d] l2] H; try discriminate; [reflexivity|].
  unfold block_of in H. simpl in H. injection H as -> -> H. f_equal. apply IH. exact H.
Qed.

Theorem group_cores_correct S R m g :
  1 <= S -> R < S ->
  match g with None => True | Some k => (1 <= k <= Z.of_nat S)%Z end ->
  exists dg, GROUP_CORES S R m g = Some dg /\
    let blocks := map (fun p => fst p :: snd p) (members_of dg) in
    concat blocks = seq 0 S /\
    group_number dg = length blocks /\
    leaders dg = map (hd 0) blocks /\
    (forall b1 b2, In b1 blocks -> In b2 blocks -> length b1 <= length b2 + 1) /\
    (exists b, In b blocks /\ In R b /\ my_leader dg = Some (hd 0 b)) /\
    match g with
    | Some k => Z.of_nat (group_number dg) = k
    | None => forall b, In b blocks -> (Z.of_nat (length b) <= Z.max 1 m)%Z
    end.
Proof.
  intros HS HR Hg.
  assert (HC : (1 <= chosen S m g <= Z.of_nat S)%Z).
  { destruct g; simpl; [assumption|]. pose proof (derived_bounds S m HS). lia. }
  destruct (group_cores_ok S R m g HR HC) as (dg & E & HN & HB & HL & HM).
  exists dg. split; [exact E|]. simpl.
  change (map (fun p => fst p :: snd p) (members_of dg)) with (map block_of (members_of dg)).
  rewrite HB in *.
  set (c := Z.to_nat (chosen S m g)) in *. assert (Hc : c <> 0) by lia.
  split; [apply concat_groups; assumption|].
  split; [rewrite length_groups; exact HN|].
  split. { rewrite HL. rewrite <- HB. rewrite map_map. reflexivity. }
  split.
  { intros b1 b2 H1 H2. apply groups_block in H1; [|assumption].
    apply groups_block in H2; [|assumption]. lia. }
  split; [exact HM|].
  destruct g as [k|]; [simpl in *; lia|].
  intros b Hb. apply groups_block_ceil in Hb; [|assumption].
  assert (HD : c = derived_group_num S m) by (subst c; simpl; lia).
  pose proof (derived_cap S m HS c HD). lia.
Qed.
