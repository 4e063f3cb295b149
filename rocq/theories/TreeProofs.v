From Coq Require Import List Arith ZArith Lia Bool.
From Coq Require Import ZifyBool.
From Verif Require Import Prelude PreludeProofs TreeModel.
Import ListNotations.

(** * Closed form of the yielded actions *)
Section Closed.
Variable SIZE : nat.

Definition cnt (b : nat) : nat := (SIZE + b - 1) / b.

Lemma cnt_spec b q : 1 <= b -> q < cnt b <-> q * b < SIZE.
Proof.
  intros Hb. unfold cnt. split; intros H.
  - assert ((q + 1) * b <= SIZE + b - 1).
    { transitivity (((SIZE + b - 1) / b) * b).
      - apply Nat.mul_le_mono_r. lia.
      - rewrite Nat.mul_comm. apply Nat.mul_div_le. lia. }
    nia.
  - apply Nat.lt_le_trans with (S q); [lia|].
    apply Nat.div_le_lower_bound; [lia|]. nia.
Qed.

Lemma cnt_half b : 1 <= b -> (cnt b + 1) / 2 = cnt (2 * b).
Proof.
  intros Hb.
  assert (forall q, q < (cnt b + 1) / 2 <-> q < cnt (2 * b)).
  { intros q. rewrite (cnt_spec (2 * b)) by lia.
    transitivity (2 * q < cnt b).
    - pose proof (Nat.div_mod (cnt b + 1) 2 ltac:(lia)).
      pose proof (Nat.mod_upper_bound (cnt b + 1) 2 ltac:(lia)). lia.
    - rewrite cnt_spec by lia. nia. }
  pose proof (H ((cnt b + 1) / 2)). pose proof (H (cnt (2 * b))). lia.
Qed.

Definition Hrow (b q : nat) : nat * Z :=
  (q * (2 * b), if (2 * q + 1) * b <? SIZE then Z.of_nat ((2 * q + 1) * b) else (-1)%Z).
Definition Hform (b : nat) : list (nat * Z) := map (Hrow b) (seq 0 (cnt (2 * b))).
Definition keys (b : nat) : list nat := map (fun q => q * b) (seq 0 (cnt b)).

Lemma H_first_form : H_first SIZE = Hform 1.
Proof.
  unfold H_first, Hform, evens. rewrite map_map.
  assert (E : (SIZE + 1) / 2 = cnt (2 * 1)).
  { unfold cnt. f_equal. lia. }
  rewrite E. apply map_ext. intros q. unfold Hrow.
  replace (2 * q + 1 <? SIZE) with ((2 * q + 1) * 1 <? SIZE) by (f_equal; lia).
  destruct ((2 * q + 1) * 1 <? SIZE); f_equal; lia.
Qed.

Lemma map_fst_Hform b : map fst (Hform b) = keys (2 * b).
Proof. unfold Hform, keys. rewrite map_map. reflexivity. Qed.

Lemma length_keys b : length (keys b) = cnt b.
Proof. unfold keys. rewrite map_length, seq_length. reflexivity. Qed.

Lemma H_next_form b : 1 <= b -> H_next (keys b) = Hform b.
Proof.
  intros Hb. unfold H_next, Hform, evens. rewrite length_keys, map_map.
  rewrite cnt_half by assumption. apply map_ext_in. intros q Hq. apply in_seq in Hq.
  assert (HC : q < cnt (2 * b)) by lia. apply cnt_spec in HC; [|lia].
  assert (H2 : 2 * q < cnt b). { apply cnt_spec; [assumption|]. nia. }
  unfold Hrow, keys.
  rewrite nth_map_seq by assumption. rewrite Nat.add_0_l.
  destruct (Nat.ltb_spec (2 * q + 1) (cnt b)) as [H|H].
  - rewrite nth_map_seq by assumption. rewrite Nat.add_0_l.
    apply cnt_spec in H; [|assumption].
    replace ((2 * q + 1) * b <? SIZE) with true by lia. f_equal; lia.
  - assert (~ (2 * q + 1) * b < SIZE). { intros HH. apply cnt_spec in HH; lia. }
    replace ((2 * q + 1) * b <? SIZE) with false by lia. f_equal; lia.
Qed.

(** the action of rank r in the round with block size b *)
Definition act (r b : nat) : option action :=
  let q := r / (2 * b) in
  if (2 * q + 1) * b <? SIZE then
    if r =? q * (2 * b) then Some (Recv ((2 * q + 1) * b) q)
    else if r =? (2 * q + 1) * b then Some (Send (q * (2 * b)) q) else None
  else None.

Lemma div_2b r b q : 1 <= b -> (r = q * (2 * b) \/ r = (2 * q + 1) * b) -> r / (2 * b) = q.
Proof.
  intros Hb [->| ->].
  - apply Nat.div_mul. lia.
  - symmetry. apply Nat.div_unique with b; lia.
Qed.

Lemma parse_from_form r b m n : 1 <= b ->
  parse_from r m (map (Hrow b) (seq m n)) =
  if (m <=? r / (2 * b)) && (r / (2 * b) <? m + n) then act r b else None.
Proof.
  intros Hb. revert m. induction n as [|n IH]; intros m.
  - replace ((m <=? r / (2 * b)) && (r / (2 * b) <? m + 0)) with false by lia. reflexivity.
  - change (seq m (S n)) with (m :: seq (S m) n). cbn [map parse_from Hrow].
    rewrite IH. clear IH. unfold Hrow.
    destruct (Nat.eq_dec (r / (2 * b)) m) as [E|E].
    + rewrite E.
      replace ((S m <=? m) && (m <? S m + n)) with false by lia.
      replace ((m <=? m) && (m <? m + S n)) with true by lia.
      unfold act. rewrite E.
      destruct (Nat.ltb_spec ((2 * m + 1) * b) SIZE); [|reflexivity].
      replace (Z.of_nat ((2 * m + 1) * b) =? -1)%Z with false by lia.
      rewrite Nat2Z.id.
      destruct (Nat.eqb_spec r (m * (2 * b))); [reflexivity|].
      destruct (Nat.eqb_spec r ((2 * m + 1) * b)).
      * replace (Z.of_nat r =? Z.of_nat ((2 * m + 1) * b))%Z with true by lia. reflexivity.
      * replace (Z.of_nat r =? Z.of_nat ((2 * m + 1) * b))%Z with false by lia. reflexivity.
    + assert (r <> m * (2 * b)) by (intros HH; apply E; apply div_2b; auto).
      assert (r <> (2 * m + 1) * b) by (intros HH; apply E; apply div_2b; auto).
      replace (r =? m * (2 * b)) with false by lia.
      assert (A : Z.eqb (Z.of_nat r) (if (2 * m + 1) * b <? SIZE then Z.of_nat ((2 * m + 1) * b) else (-1)%Z) = false).
      { destruct ((2 * m + 1) * b <? SIZE); lia. }
      rewrite A.
      assert (B : ((S m <=? r / (2 * b)) && (r / (2 * b) <? S m + n))
              = ((m <=? r / (2 * b)) && (r / (2 * b) <? m + S n))) by lia.
      rewrite B. destruct (_ =? -1)%Z; reflexivity.
Qed.

Lemma parse_form r b : 1 <= b -> r < SIZE -> parse r (Hform b) = act r b.
Proof.
  intros Hb Hr. unfold parse, Hform. rewrite parse_from_form by assumption.
  assert (r / (2 * b) < cnt (2 * b)).
  { apply cnt_spec; [lia|]. apply Nat.le_lt_trans with r; [|assumption].
    rewrite Nat.mul_comm. apply Nat.mul_div_le. lia. }
  destruct (Nat.leb_spec 0 (r / (2 * b))); [|lia].
  destruct (Nat.ltb_spec (r / (2 * b)) (0 + cnt (2 * b))); [|lia].
  reflexivity.
Qed.

Lemma TREE_loop_form fuel r t : r < SIZE -> SIZE <= fuel + 2 ^ t ->
  exists R, TREE_loop fuel r (keys (2 ^ t)) = Some (map (fun u => act r (2 ^ u)) (seq t R)) /\
  SIZE <= 2 ^ (t + R) /\ (1 <= R -> 2 ^ (t + R - 1) < SIZE).
Proof.
  intros Hr. revert t. induction fuel as [|fuel IH]; intros t HF.
  - exists 0. simpl. rewrite length_keys.
    assert (H2 := Nat.pow_nonzero 2 t ltac:(lia)).
    assert (~ 1 < cnt (2 ^ t)). { rewrite cnt_spec by lia. lia. }
    replace (1 <? cnt (2 ^ t)) with false by lia.
    rewrite Nat.add_0_r. split; [reflexivity|lia].
  - cbn [TREE_loop]. rewrite length_keys.
    assert (H2 := Nat.pow_nonzero 2 t ltac:(lia)).
    destruct (Nat.ltb_spec 1 (cnt (2 ^ t))) as [H|H].
    + apply cnt_spec in H; [|lia].
      rewrite H_next_form by lia. rewrite map_fst_Hform.
      change (2 * 2 ^ t) with (2 ^ (S t)).
      destruct (IH (S t)) as (R & E & HR & HR').
      { simpl. lia. }
      rewrite E. exists (S R). rewrite parse_form by lia. split; [reflexivity|].
      replace (t + S R) with (S t + R) by lia. split; [assumption|].
      intros _. destruct R as [|R].
      * replace (S t + 0 - 1) with t by lia. lia.
      * apply HR'. lia.
    + assert (~ 2 ^ t < SIZE). { intros HH. assert (1 < cnt (2 ^ t)); [|lia]. apply cnt_spec; lia. }
      exists 0. rewrite Nat.add_0_r. split; [reflexivity|lia].
Qed.

Lemma TREE_form : 1 <= SIZE -> exists R, 1 <= R /\ SIZE <= 2 ^ R /\
  forall r, r < SIZE -> TREE SIZE r = Some (map (fun u => act r (2 ^ u)) (seq 0 R)).
Proof.
  intros HS.
  assert (forall r, r < SIZE -> exists R,
     TREE SIZE r = Some (map (fun u => act r (2 ^ u)) (seq 0 R)) /\ 1 <= R /\ SIZE <= 2 ^ R
     /\ (2 <= R -> 2 ^ (R - 1) < SIZE)).
  { intros r Hr. unfold TREE. rewrite H_first_form, map_fst_Hform.
    change (2 * 1) with (2 ^ 1).
    destruct (TREE_loop_form SIZE r 1 Hr) as (R & E & HR & HR'); [simpl; lia|].
    rewrite E. exists (S R). rewrite parse_form by lia. split; [reflexivity|].
    split; [lia|]. split; [exact HR|]. intros H. apply HR'. lia. }
  destruct (H 0 HS) as (R & E & HR & HS2 & HM).
  exists R. split; [assumption|]. split; [assumption|].
  intros r Hr. destruct (H r Hr) as (R' & E' & HR' & HS2' & HM').
  rewrite E'. repeat f_equal.
  destruct (Nat.lt_trichotomy R R') as [L|[L|L]]; [|auto|].
  - exfalso. assert (2 ^ R <= 2 ^ (R' - 1)) by (apply Nat.pow_le_mono_r; lia). lia.
  - exfalso. assert (2 ^ R' <= 2 ^ (R - 1)) by (apply Nat.pow_le_mono_r; lia). lia.
Qed.

(** * Matching of sends and receives *)
Lemma act_send_recv s d tag b : 1 <= b ->
  act s b = Some (Send d tag) <-> act d b = Some (Recv s tag) .
Proof.
  intros Hb. unfold act. split.
  - remember (s / (2 * b)) as q eqn:Eq. intros H.
    destruct (Nat.ltb_spec ((2 * q + 1) * b) SIZE) as [H1|H1]; [|discriminate].
    destruct (Nat.eqb_spec s (q * (2 * b))) as [H2|H2]; [discriminate|].
    destruct (Nat.eqb_spec s ((2 * q + 1) * b)) as [H3|H3]; [|discriminate].
    assert (E1 : d = q * (2 * b)) by congruence. assert (E2 : tag = q) by congruence. clear H. subst d tag.
    rewrite (div_2b (q * (2 * b)) b q) by auto.
    replace ((2 * q + 1) * b <? SIZE) with true by lia. rewrite Nat.eqb_refl, <- H3. reflexivity.
  - remember (d / (2 * b)) as q eqn:Eq. intros H.
    destruct (Nat.ltb_spec ((2 * q + 1) * b) SIZE) as [H1|H1]; [|discriminate].
    destruct (Nat.eqb_spec d (q * (2 * b))) as [H2|H2].
    2: { destruct (d =? (2 * q + 1) * b); discriminate. }
    assert (E1 : s = (2 * q + 1) * b) by congruence. assert (E2 : tag = q) by congruence. clear H. subst s tag.
    rewrite (div_2b ((2 * q + 1) * b) b q) by auto.
    replace ((2 * q + 1) * b <? SIZE) with true by lia.
    replace ((2 * q + 1) * b =? q * (2 * b)) with false by nia.
    rewrite Nat.eqb_refl, <- H2. reflexivity.
Qed.

Lemma act_recv_facts d s tag b : 1 <= b -> act d b = Some (Recv s tag) ->
  s < SIZE /\ s = d + b /\ d mod b = 0 /\ d mod (2 * b) = 0.
Proof.
  intros Hb. unfold act. remember (d / (2 * b)) as q eqn:Eq. intros H.
  destruct (Nat.ltb_spec ((2 * q + 1) * b) SIZE) as [H1|H1]; [|discriminate].
  destruct (Nat.eqb_spec d (q * (2 * b))) as [H2|H2].
  2: { destruct (d =? (2 * q + 1) * b); discriminate. }
  assert (E1 : s = (2 * q + 1) * b) by congruence. assert (E2 : tag = q) by congruence. clear H. subst s tag. split; [assumption|]. split; [lia|].
  rewrite H2. split.
  - replace (q * (2 * b)) with (2 * q * b) by lia. apply Nat.mod_mul. lia.
  - apply Nat.mod_mul. lia.
Qed.

Lemma act_send_facts s d tag b : 1 <= b -> act s b = Some (Send d tag) ->
  d < s /\ s = d + b /\ s mod b = 0 /\ s mod (2 * b) <> 0 /\ d < SIZE.
Proof.
  intros Hb H. pose proof H as H'. apply act_send_recv in H'; [|assumption].
  apply act_recv_facts in H'; [|assumption]. destruct H' as (H1 & H2 & H3 & H4).
  split; [lia|]. split; [assumption|].
  assert (HB : d = (2 * b) * (d / (2 * b)) + d mod (2 * b)) by (apply Nat.div_mod; lia).
  split; [|split; [|lia]].
  - replace s with ((2 * (d / (2 * b)) + 1) * b) by nia. apply Nat.mod_mul. lia.
  - rewrite H2. rewrite HB, H4. rewrite Nat.add_0_r. rewrite (Nat.mul_comm (2 * b)).
    rewrite Nat.add_comm, Nat.mod_add by lia. rewrite Nat.mod_small by lia. lia.
Qed.

Lemma act_none_facts r b : 1 <= b -> r < SIZE -> act r b = None ->
  (r mod b = 0 /\ r mod (2 * b) = 0 /\ SIZE <= r + b) \/ (r mod b <> 0 /\ r mod (2 * b) <> 0).
Proof.
  intros Hb Hr. unfold act.
  assert (HB : r = (2 * b) * (r / (2 * b)) + r mod (2 * b)) by (apply Nat.div_mod; lia).
  assert (HU := Nat.mod_upper_bound r (2 * b) ltac:(lia)).
  set (q := r / (2 * b)) in *. set (m := r mod (2 * b)) in *.
  assert (HM : r mod b = m mod b).
  { rewrite HB. rewrite Nat.add_comm. replace (2 * b * q) with (2 * q * b) by lia.
    apply Nat.mod_add. lia. }
  rewrite HM.
  destruct (Nat.ltb_spec ((2 * q + 1) * b) SIZE) as [H1|H1].
  - destruct (Nat.eqb_spec r (q * (2 * b))) as [H2|H2]; [discriminate|].
    destruct (Nat.eqb_spec r ((2 * q + 1) * b)) as [H3|H3]; [discriminate|].
    intros _. right.
    assert (m <> 0) by nia. assert (m <> b) by nia.
    split; [|assumption].
    destruct (Nat.lt_ge_cases m b).
    + rewrite Nat.mod_small; lia.
    + assert (E : m mod b = m - b). { symmetry. apply Nat.mod_unique with 1; lia. } lia.
  - intros _. destruct (Nat.eq_dec m 0) as [E|E].
    + left. rewrite E. rewrite Nat.mod_0_l by lia. split; [reflexivity|]. split; [reflexivity|]. nia.
    + right. split; [|assumption]. rewrite Nat.mod_small; [lia|]. nia.
Qed.
End Closed.

Lemma pow_pos t : 1 <= 2 ^ t.
Proof. pose proof (Nat.pow_nonzero 2 t). lia. Qed.

(** * Asynchronous execution *)
Section Exec.
Variable V : Type.
Variable zero : V.
Variable add : V -> V -> V.
Hypothesis add_assoc : forall x y z, add x (add y z) = add (add x y) z.
Hypothesis add_0_l : forall x, add zero x = x.
Hypothesis add_0_r : forall x, add x zero = x.
Variable SIZE R : nat.
Hypothesis HSIZE : 1 <= SIZE.
Hypothesis HR : SIZE <= 2 ^ R.
Variable c0 : nat -> V.

Definition actt (r t : nat) := act SIZE r (2 ^ t).
Definition prog (r : nat) := map (fun u => actt r u) (seq 0 R).
Definition big (a n : nat) : V := fold_right add zero (map c0 (seq a n)).

Lemma big_app a n m : big a (n + m) = add (big a n) (big (a + n) m).
Proof.
  unfold big. rewrite seq_app, map_app. induction (map c0 (seq a n)) as [|x l IH]; simpl.
  - rewrite add_0_l. reflexivity.
  - rewrite IH, add_assoc. reflexivity.
Qed.

(** value of core r before round t *)
Definition vs (r t : nat) : V :=
  if r mod 2 ^ t =? 0 then big r (Nat.min (2 ^ t) (SIZE - r)) else zero.

Lemma vs_none r t : r < SIZE -> actt r t = None -> vs r (S t) = vs r t.
Proof.
  intros Hr H. unfold vs. pose proof (pow_pos t). apply act_none_facts in H; [|lia|assumption].
  change (2 ^ S t) with (2 * 2 ^ t).
  destruct H as [(H1 & H2 & H3)|(H1 & H2)].
  - replace (r mod (2 * 2 ^ t) =? 0) with true by lia. replace (r mod 2 ^ t =? 0) with true by lia.
    f_equal. lia.
  - replace (r mod (2 * 2 ^ t) =? 0) with false by lia. replace (r mod 2 ^ t =? 0) with false by lia.
    reflexivity.
Qed.

Lemma vs_send s d tag t : actt s t = Some (Send d tag) -> vs s (S t) = zero.
Proof.
  intros H. apply act_send_facts in H; [|apply pow_pos]. unfold vs.
  change (2 ^ S t) with (2 * 2 ^ t).
  replace (s mod (2 * 2 ^ t) =? 0) with false by lia. reflexivity.
Qed.

Lemma vs_recv r s tag t : actt r t = Some (Recv s tag) -> vs r (S t) = add (vs r t) (vs s t).
Proof.
  intros H. pose proof H as H'. apply act_send_recv in H'; [|apply pow_pos].
  apply act_send_facts in H'; [|apply pow_pos].
  apply act_recv_facts in H; [|apply pow_pos]. unfold vs.
  change (2 ^ S t) with (2 * 2 ^ t).
  replace (r mod (2 * 2 ^ t) =? 0) with true by lia.
  replace (r mod 2 ^ t =? 0) with true by lia.
  replace (s mod 2 ^ t =? 0) with true by lia.
  replace (Nat.min (2 * 2 ^ t) (SIZE - r)) with (2 ^ t + Nat.min (2 ^ t) (SIZE - s)) by lia.
  rewrite big_app. f_equal; [|f_equal; lia].
  f_equal. lia.
Qed.

Lemma send_once s t t' d d' tag tag' :
  actt s t = Some (Send d tag) -> actt s t' = Some (Send d' tag') -> t = t'.
Proof.
  assert (forall s t t' d d' tag tag', t < t' ->
    actt s t = Some (Send d tag) -> actt s t' = Some (Send d' tag') -> False) as K.
  { clear - SIZE. intros s t t' d d' tag tag' Hlt H1 H2.
    apply act_send_facts in H1; [|apply pow_pos]. apply act_send_facts in H2; [|apply pow_pos].
    destruct H1 as (_ & _ & _ & H1 & _). destruct H2 as (_ & _ & H2 & _).
    apply H1. assert (E : t' = S t + (t' - S t)) by lia. rewrite E in H2.
    rewrite Nat.pow_add_r in H2. change (2 ^ S t) with (2 * 2 ^ t) in H2.
    pose proof (pow_pos t). pose proof (pow_pos (t' - S t)).
    assert (D : s = (2 * 2 ^ t * 2 ^ (t' - S t)) * (s / (2 * 2 ^ t * 2 ^ (t' - S t)))).
    { pose proof (Nat.div_mod s (2 * 2 ^ t * 2 ^ (t' - S t)) ltac:(nia)) as DM.
      rewrite H2 in DM. lia. }
    rewrite D. rewrite <- Nat.mul_assoc. rewrite Nat.mul_comm. apply Nat.mod_mul. lia. }
  intros H1 H2. destruct (Nat.lt_trichotomy t t') as [L|[L|L]]; [|assumption|]; exfalso; eauto.
Qed.

Notation config := (config V).
Notation step := (step V zero add prog SIZE).
Notation rstep := (rstep V zero add prog SIZE).

Record inv (c : config) : Prop := {
  inv_pc : forall r, r < SIZE -> pc V c r <= R;
  inv_val : forall r, r < SIZE -> val V c r = vs r (pc V c r);
  inv_rs : forall s d tag t, s < SIZE -> d < SIZE -> actt s t = Some (Send d tag) ->
      t < pc V c d -> t < pc V c s;
  inv_chan1 : forall s d tag t, s < SIZE -> actt s t = Some (Send d tag) ->
      t < pc V c s -> pc V c d <= t -> chan V c s d tag = [vs s t];
  inv_chan2 : forall s d tag, chan V c s d tag <> [] ->
      exists t, s < SIZE /\ actt s t = Some (Send d tag) /\ t < pc V c s /\ pc V c d <= t
}.

Lemma nth_prog r t x : nth_error (prog r) t = Some x <-> t < R /\ actt r t = x.
Proof.
  unfold prog. rewrite nth_error_map_seq. rewrite Nat.add_0_l.
  destruct (Nat.ltb_spec t R); split; intros H'.
  - injection H' as <-. auto.
  - destruct H' as (_ & <-). reflexivity.
  - discriminate.
  - lia.
Qed.

Lemma length_prog r : length (prog r) = R.
Proof. unfold prog. rewrite map_length, seq_length. reflexivity. Qed.

Lemma inv_init : inv (init V c0).
Proof.
  constructor; simpl.
  - intros. lia.
  - intros r Hr. unfold vs. change (2 ^ 0) with 1. rewrite Nat.mod_1_r. rewrite Nat.eqb_refl.
    replace (Nat.min 1 (SIZE - r)) with 1 by lia. unfold big. simpl. rewrite add_0_r. reflexivity.
  - intros. lia.
  - intros. lia.
  - intros. congruence.
Qed.

Lemma actt_pair s d tag t : actt s t = Some (Send d tag) <-> actt d t = Some (Recv s tag).
Proof. apply act_send_recv. apply pow_pos. Qed.

Lemma actt_send_lt s d tag t : actt s t = Some (Send d tag) -> d < s /\ d < SIZE.
Proof. intros H. apply act_send_facts in H; [|apply pow_pos]. tauto. Qed.

Ltac upds := unfold upd1, upd3 in *; simpl in *.

Lemma upd3_eq {B} (f : nat -> nat -> nat -> B) a b c y : upd3 f a b c y a b c = y.
Proof. unfold upd3. rewrite !Nat.eqb_refl. reflexivity. Qed.

Lemma upd3_neq {B} (f : nat -> nat -> nat -> B) a b c y a' b' c' :
  (a', b', c') <> (a, b, c) -> upd3 f a b c y a' b' c' = f a' b' c'.
Proof.
  intros H. unfold upd3.
  destruct (Nat.eqb_spec a' a), (Nat.eqb_spec b' b), (Nat.eqb_spec c' c); try reflexivity.
  subst. congruence.
Qed.

Lemma triple_dec (x y : nat * nat * nat) : {x = y} + {x <> y}.
Proof. repeat decide equality. Qed.

Lemma inv_step c c' : inv c -> step c c' -> inv c'.
Proof.
  intros I H. destruct I as [Ipc Ival Irs Ic1 Ic2].
  destruct H as [r c Hr Hn|r d tag c Hr Hn|r s tag v rest c Hr Hn Hch].
  - apply nth_prog in Hn. destruct Hn as (Hlt & Ha). constructor; upds.
    + intros x Hx. destruct (Nat.eqb_spec x r); [subst; lia|auto].
    + intros x Hx. destruct (Nat.eqb_spec x r); [|auto]. subst.
      rewrite Ival by assumption. symmetry. apply vs_none; assumption.
    + intros s d tag t Hs Hd Hsend Htd.
      assert (t < pc V c s).
      { apply (Irs s d tag); auto. destruct (Nat.eqb_spec d r) as [->|]; [|assumption].
        assert (t <> pc V c r) by (intros ->; apply actt_pair in Hsend; congruence). lia. }
      destruct (Nat.eqb_spec s r) as [->|]; lia.
    + intros s d tag t Hs Hsend Hts Htd.
      apply Ic1; auto.
      * destruct (Nat.eqb_spec s r) as [->|]; [|assumption].
        assert (t <> pc V c r) by (intros ->; congruence). lia.
      * destruct (Nat.eqb_spec d r) as [->|]; lia.
    + intros s d tag Hne. destruct (Ic2 _ _ _ Hne) as (t & Hs & Hsend & Hts & Htd).
      exists t. split; [assumption|]. split; [assumption|]. split.
      * destruct (Nat.eqb_spec s r) as [->|]; lia.
      * destruct (Nat.eqb_spec d r) as [->|]; [|assumption].
        assert (t <> pc V c r) by (intros ->; apply actt_pair in Hsend; congruence).
        lia.
  - apply nth_prog in Hn. destruct Hn as (Hlt & Ha).
    pose proof (actt_send_lt _ _ _ _ Ha) as (Hdr & Hd).
    assert (G : chan V c r d tag = []).
    { destruct (chan V c r d tag) eqn:E; [reflexivity|]. exfalso.
      destruct (Ic2 r d tag) as (t & _ & Hsend & Hts & _); [rewrite E; discriminate|].
      assert (t = pc V c r) by (eapply send_once; eauto). lia. }
    assert (P : pc V c d <= pc V c r).
    { destruct (Nat.le_gt_cases (pc V c d) (pc V c r)) as [|L]; [assumption|]. exfalso.
      specialize (Irs r d tag _ Hr Hd Ha L). lia. }
    constructor.
    + intros x Hx. upds. destruct (Nat.eqb_spec x r); [subst; lia|auto].
    + intros x Hx. upds. destruct (Nat.eqb_spec x r); [|auto]. subst.
      symmetry. eapply vs_send; eassumption.
    + intros s' d' tag' t Hs Hd' Hsend Htd. upds.
      assert (t < pc V c s').
      { apply (Irs s' d' tag'); auto. destruct (Nat.eqb_spec d' r) as [->|]; [|assumption].
        assert (t <> pc V c r) by (intros ->; apply actt_pair in Hsend; congruence). lia. }
      destruct (Nat.eqb_spec s' r) as [->|]; lia.
    + intros s' d' tag' t Hs Hsend Hts Htd. simpl.
      destruct (triple_dec (s', d', tag') (r, d, tag)) as [E|E].
      * injection E as -> -> ->. rewrite upd3_eq, G. simpl.
        assert (t = pc V c r) by (eapply send_once; eauto). subst t.
        rewrite Ival by assumption. reflexivity.
      * rewrite upd3_neq by assumption. simpl in *. unfold upd1 in *. apply Ic1; auto.
        -- destruct (Nat.eqb_spec s' r) as [->|]; [|assumption].
           assert (t <> pc V c r) by (intros ->; congruence). lia.
        -- destruct (Nat.eqb_spec d' r) as [->|]; lia.
    + intros s' d' tag' Hne. simpl in Hne.
      destruct (triple_dec (s', d', tag') (r, d, tag)) as [E|E].
      * injection E as -> -> ->. exists (pc V c r). upds. rewrite Nat.eqb_refl.
        replace (d =? r) with false by lia. auto.
      * rewrite upd3_neq in Hne by assumption.
        destruct (Ic2 _ _ _ Hne) as (t & Hs & Hsend & Hts & Htd).
        exists t. upds. split; [assumption|]. split; [assumption|]. split.
        -- destruct (Nat.eqb_spec s' r) as [->|]; lia.
        -- destruct (Nat.eqb_spec d' r) as [->|]; [|assumption].
           assert (t <> pc V c r) by (intros ->; apply actt_pair in Hsend; congruence). lia.
  - apply nth_prog in Hn. destruct Hn as (Hlt & Ha).
    assert (Hp := proj2 (actt_pair _ _ _ _) Ha).
    pose proof (actt_send_lt _ _ _ _ Hp) as (Hdr & _).
    destruct (Ic2 s r tag) as (t & Hs & Hsend & Hts & Htd); [rewrite Hch; discriminate|].
    assert (t = pc V c r) by (eapply send_once; eauto). subst t.
    assert (E1 := Ic1 _ _ _ _ Hs Hsend Hts Htd). rewrite Hch in E1. injection E1 as -> ->.
    constructor.
    + intros x Hx. upds. destruct (Nat.eqb_spec x r); [subst; lia|auto].
    + intros x Hx. upds. destruct (Nat.eqb_spec x r); [|auto]. subst.
      rewrite Ival by assumption. symmetry. eapply vs_recv; eassumption.
    + intros s' d' tag' t Hs' Hd' Hsend' Htd'. upds.
      destruct (Nat.eqb_spec d' r) as [->|Nd].
      * destruct (Nat.eq_dec t (pc V c r)) as [->|Nt].
        -- apply actt_pair in Hsend'. rewrite Ha in Hsend'. injection Hsend' as <- <-.
           replace (s =? r) with false by lia. assumption.
        -- assert (t < pc V c s') by (apply (Irs s' r tag'); auto; lia).
           destruct (Nat.eqb_spec s' r) as [->|]; lia.
      * assert (t < pc V c s') by (apply (Irs s' d' tag'); auto; lia).
        destruct (Nat.eqb_spec s' r) as [->|]; lia.
    + intros s' d' tag' t Hs' Hsend' Hts' Htd'. simpl in *.
      destruct (triple_dec (s', d', tag') (s, r, tag)) as [E|E].
      * injection E as -> -> ->. exfalso. unfold upd1 in *. rewrite Nat.eqb_refl in Htd'.
        assert (t = pc V c r) by (eapply send_once; eauto). lia.
      * rewrite upd3_neq by assumption. unfold upd1 in *. apply Ic1; auto.
        -- destruct (Nat.eqb_spec s' r) as [->|]; [|assumption].
           assert (t <> pc V c r) by (intros ->; congruence). lia.
        -- destruct (Nat.eqb_spec d' r) as [->|]; lia.
    + intros s' d' tag' Hne. simpl in Hne.
      destruct (triple_dec (s', d', tag') (s, r, tag)) as [E|E].
      * injection E as -> -> ->. rewrite upd3_eq in Hne. congruence.
      * rewrite upd3_neq in Hne by assumption.
        destruct (Ic2 _ _ _ Hne) as (t & Hs' & Hsend' & Hts' & Htd').
        exists t. upds. split; [assumption|]. split; [assumption|]. split.
        -- destruct (Nat.eqb_spec s' r) as [->|]; lia.
        -- destruct (Nat.eqb_spec d' r) as [->|]; [|assumption].
           assert (t <> pc V c r).
           { intros ->. apply actt_pair in Hsend'. rewrite Ha in Hsend'. congruence. }
           lia.
Qed.

Lemma inv_steps c : star step (init V c0) c -> inv c.
Proof.
  intros H. remember (init V c0) as i eqn:E. induction H; subst.
  - apply inv_init.
  - eapply inv_step; eauto.
Qed.

(** a core with a smallest program counter among those not finished *)
Lemma min_pc (c : config) n : n <= SIZE -> (exists r, r < n /\ pc V c r < R) ->
  exists r, r < n /\ pc V c r < R /\ forall x, x < n -> pc V c r <= pc V c x.
Proof.
  induction n as [|n IH]; intros Hn (r & Hr & Hlt); [lia|].
  assert (D : (exists r, r < n /\ pc V c r < R) \/ forall r, r < n -> R <= pc V c r).
  { clear IH Hr Hlt r. induction n as [|n IHn].
    - right. intros. lia.
    - destruct IHn as [(r & Hr & H)|H]; [lia| |].
      + left. exists r. split; [lia|assumption].
      + destruct (Nat.lt_ge_cases (pc V c n) R).
        * left. exists n. split; [lia|assumption].
        * right. intros r Hr. destruct (Nat.eq_dec r n) as [->|]; [assumption|]. apply H. lia. }
  destruct D as [D|D].
  - destruct (IH ltac:(lia) D) as (m & Hm & Hm2 & Hmin).
    destruct (Nat.lt_ge_cases (pc V c n) (pc V c m)).
    + exists n. split; [lia|]. split; [lia|]. intros x Hx.
      destruct (Nat.eq_dec x n) as [->|]; [lia|]. specialize (Hmin x ltac:(lia)). lia.
    + exists m. split; [lia|]. split; [lia|]. intros x Hx.
      destruct (Nat.eq_dec x n) as [->|]; [lia|]. apply Hmin. lia.
  - assert (r = n). { destruct (Nat.eq_dec r n); [assumption|]. specialize (D r ltac:(lia)). lia. }
    subst. exists n. split; [lia|]. split; [assumption|]. intros x Hx.
    destruct (Nat.eq_dec x n) as [->|]; [lia|]. specialize (D x ltac:(lia)). lia.
Qed.

Lemma finished_dec (c : config) : inv c ->
  finished V prog SIZE c \/ exists r, r < SIZE /\ pc V c r < R.
Proof.
  intros I.
  assert (D : forall n, n <= SIZE -> (forall r, r < n -> pc V c r = R) \/ exists r, r < n /\ pc V c r < R).
  { induction n as [|n IHn]; intros Hn.
    - left. intros. lia.
    - destruct IHn as [H|(r & Hr & H)]; [lia| |].
      + pose proof (inv_pc c I n ltac:(lia)).
        destruct (Nat.eq_dec (pc V c n) R).
        * left. intros r Hr. destruct (Nat.eq_dec r n) as [->|]; [assumption|]. apply H. lia.
        * right. exists n. lia.
      + right. exists r. split; [lia|assumption]. }
  destruct (D SIZE ltac:(lia)) as [H|H]; [left|right; assumption].
  intros r Hr. rewrite length_prog. auto.
Qed.

Lemma progress c : inv c -> finished V prog SIZE c \/ exists c', step c c'.
Proof.
  intros I. destruct (finished_dec c I) as [F|E]; [left; assumption|right].
  destruct (min_pc c SIZE (le_n _) E) as (r & Hr & Hlt & Hmin).
  destruct (actt r (pc V c r)) as [[s tag|d tag]|] eqn:A.
  - pose proof (proj2 (actt_pair _ _ _ _) A) as A'.
    assert (Hs : s < SIZE). { apply act_recv_facts in A; [|apply pow_pos]. tauto. }
    destruct (Nat.eq_dec (pc V c s) (pc V c r)) as [Epc|Npc].
    + eexists. eapply (step_send V zero add prog SIZE s r tag c Hs).
      apply nth_prog. rewrite Epc. auto.
    + specialize (Hmin s Hs).
      assert (Ec := inv_chan1 c I s r tag (pc V c r) Hs A' ltac:(lia) ltac:(lia)).
      eexists. eapply (step_recv V zero add prog SIZE r s tag _ _ c Hr); [|exact Ec].
      apply nth_prog. auto.
  - eexists. eapply (step_send V zero add prog SIZE r d tag c Hr). apply nth_prog. auto.
  - eexists. eapply (step_none V zero add prog SIZE r c Hr). apply nth_prog. auto.
Qed.

Definition work (c : config) : nat := sum (map (fun r => R - pc V c r) (seq 0 SIZE)).

Lemma sum_map_lt (f g : nat -> nat) a n x :
  a <= x < a + n -> (forall y, f y <= g y) -> f x < g x ->
  sum (map f (seq a n)) < sum (map g (seq a n)).
Proof.
  intros Hx Hle Hlt.
  assert (LE : forall l, sum (map f l) <= sum (map g l)).
  { induction l as [|y l IH]; simpl; [lia|]. specialize (Hle y). lia. }
  revert a Hx. induction n as [|n IH]; intros a Hx; [lia|]. simpl.
  destruct (Nat.eq_dec x a) as [->|].
  - specialize (LE (seq (S a) n)). lia.
  - specialize (IH (S a) ltac:(lia)). specialize (Hle a). lia.
Qed.

Lemma work_decreases c c' : inv c -> step c c' -> work c' < work c.
Proof.
  intros I H. unfold work.
  assert (K : exists r, r < SIZE /\ pc V c r < R /\ forall x, pc V c' x = upd1 (pc V c) r (S (pc V c r)) x).
  { destruct H as [r c Hr Hn|r d tag c Hr Hn|r s tag v rest c Hr Hn Hch];
    apply nth_prog in Hn; destruct Hn as (Hlt & _); exists r; split; auto. }
  destruct K as (r & Hr & Hlt & E).
  apply sum_map_lt with r; [lia| |].
  - intros y. rewrite E. unfold upd1. destruct (Nat.eqb_spec y r); subst; lia.
  - rewrite E. unfold upd1. rewrite Nat.eqb_refl. lia.
Qed.

Lemma final_value c : inv c -> finished V prog SIZE c -> val V c 0 = big 0 SIZE /\
   (forall r, 0 < r < SIZE -> val V c r = zero) /\ forall s d tag, chan V c s d tag = [].
Proof.
  intros I F. split; [|split].
  - rewrite (inv_val c I) by lia. rewrite F by lia. rewrite length_prog. unfold vs.
    rewrite Nat.mod_0_l by (pose proof (pow_pos R); lia). simpl.
    replace (Nat.min (2 ^ R) (SIZE - 0)) with SIZE by lia. reflexivity.
  - intros r Hr. rewrite (inv_val c I) by lia. rewrite F by lia. rewrite length_prog. unfold vs.
    rewrite Nat.mod_small by lia. replace (r =? 0) with false by lia. reflexivity.
  - intros s d tag. destruct (chan V c s d tag) eqn:E; [reflexivity|]. exfalso.
    destruct (inv_chan2 c I s d tag) as (t & Hs & A & Ht & Htd); [rewrite E; discriminate|].
    pose proof (inv_pc c I s Hs).
    apply actt_send_lt in A. rewrite F in Htd by tauto. rewrite length_prog in Htd. lia.
Qed.

(** rendezvous executions *)
Record rinv (c : config) : Prop := {
  rinv_pc : forall r, r < SIZE -> pc V c r <= R;
  rinv_val : forall r, r < SIZE -> val V c r = vs r (pc V c r);
  rinv_pair : forall s d tag t, s < SIZE -> d < SIZE -> actt s t = Some (Send d tag) ->
      (t < pc V c d <-> t < pc V c s)
}.

Lemma rinv_init : rinv (init V c0).
Proof.
  destruct inv_init as [A B _ _ _]. constructor; auto. intros. simpl. lia.
Qed.

Lemma rinv_step c c' : rinv c -> rstep c c' -> rinv c'.
Proof.
  intros I H. destruct I as [Ipc Ival Ip]. destruct H as [r c Hr Hn|s d tag c Hs Hd Hsd Hn1 Hn2].
  - apply nth_prog in Hn. destruct Hn as (Hlt & Ha). constructor; upds.
    + intros x Hx. destruct (Nat.eqb_spec x r); [subst; lia|auto].
    + intros x Hx. destruct (Nat.eqb_spec x r); [|auto]. subst.
      rewrite Ival by assumption. symmetry. apply vs_none; assumption.
    + intros s d tag t Hs Hd Hsend. specialize (Ip _ _ _ _ Hs Hd Hsend).
      assert (d <> s) by (apply actt_send_lt in Hsend; lia).
      destruct (Nat.eqb_spec d r) as [->|], (Nat.eqb_spec s r) as [->|]; try lia.
      * assert (t <> pc V c r) by (intros ->; apply actt_pair in Hsend; congruence). lia.
      * assert (t <> pc V c r) by (intros ->; congruence). lia.
  - apply nth_prog in Hn1. apply nth_prog in Hn2.
    destruct Hn1 as (Hlt1 & Ha1). destruct Hn2 as (Hlt2 & Ha2).
    pose proof (proj2 (actt_pair _ _ _ _) Ha2) as Ha2'.
    assert (Et : pc V c s = pc V c d) by (eapply send_once; eauto).
    constructor; upds.
    + intros x Hx. destruct (Nat.eqb_spec x d); [subst; lia|].
      destruct (Nat.eqb_spec x s); [subst; lia|]. auto.
    + intros x Hx. destruct (Nat.eqb_spec x d) as [->|].
      { rewrite !Ival by assumption. rewrite Et. symmetry. eapply vs_recv; eassumption. }
      destruct (Nat.eqb_spec x s) as [->|]; [|auto].
      symmetry. eapply vs_send; eassumption.
    + intros s' d' tag' t Hs' Hd' Hsend. specialize (Ip _ _ _ _ Hs' Hd' Hsend).
      assert (d' <> s') by (apply actt_send_lt in Hsend; lia).
      destruct (Nat.eq_dec t (pc V c d)) as [->|Nt].
      * (* the round of this exchange: only the pair (s,d) can communicate with s or d *)
        assert (K1 : d' = d -> s' = s).
        { intros ->. apply actt_pair in Hsend. rewrite Ha2 in Hsend. congruence. }
        assert (K2 : s' = s -> d' = d).
        { intros ->. rewrite <- Et in Hsend. rewrite Ha1 in Hsend. congruence. }
        assert (K3 : d' <> s).
        { intros ->. apply actt_pair in Hsend. rewrite <- Et in Hsend. congruence. }
        assert (K4 : s' <> d).
        { intros ->. congruence. }
        destruct (Nat.eqb_spec d' d), (Nat.eqb_spec d' s), (Nat.eqb_spec s' d), (Nat.eqb_spec s' s);
          subst; try lia; try tauto.
      * destruct (Nat.eqb_spec d' d), (Nat.eqb_spec d' s), (Nat.eqb_spec s' d), (Nat.eqb_spec s' s);
          subst; lia.
Qed.

Lemma rinv_steps c : star rstep (init V c0) c -> rinv c.
Proof.
  intros H. remember (init V c0) as i eqn:E. induction H; subst.
  - apply rinv_init.
  - eapply rinv_step; eauto.
Qed.

Lemma rprogress c : rinv c -> finished V prog SIZE c \/ exists c', rstep c c'.
Proof.
  intros I.
  assert (D : finished V prog SIZE c \/ exists r, r < SIZE /\ pc V c r < R).
  { assert (D : forall n, n <= SIZE -> (forall r, r < n -> pc V c r = R) \/ exists r, r < n /\ pc V c r < R).
    { induction n as [|n IHn]; intros Hn.
      - left. intros. lia.
      - destruct IHn as [H|(r & Hr & H)]; [lia| |].
        + pose proof (rinv_pc c I n ltac:(lia)).
          destruct (Nat.eq_dec (pc V c n) R).
          * left. intros r Hr. destruct (Nat.eq_dec r n) as [->|]; [assumption|]. apply H. lia.
          * right. exists n. lia.
        + right. exists r. split; [lia|assumption]. }
    destruct (D SIZE ltac:(lia)) as [H|H]; [left|right; assumption].
    intros r Hr. rewrite length_prog. auto. }
  destruct D as [F|E]; [left; assumption|right].
  destruct (min_pc c SIZE (le_n _) E) as (r & Hr & Hlt & Hmin).
  destruct (actt r (pc V c r)) as [[s tag|d tag]|] eqn:A.
  - pose proof (proj2 (actt_pair _ _ _ _) A) as A'.
    assert (Hs : s < SIZE). { apply act_recv_facts in A; [|apply pow_pos]. tauto. }
    assert (r < s) by (apply actt_send_lt in A'; tauto).
    assert (Epc : pc V c s = pc V c r).
    { pose proof (rinv_pair c I _ _ _ _ Hs Hr A'). specialize (Hmin s Hs). lia. }
    eexists. eapply (rstep_comm V zero add prog SIZE s r tag c Hs Hr); [lia| |].
    + apply nth_prog. rewrite Epc. auto.
    + apply nth_prog. auto.
  - pose proof (proj1 (actt_pair _ _ _ _) A) as A'.
    pose proof (actt_send_lt _ _ _ _ A) as (Hdr & Hd).
    assert (Epc : pc V c d = pc V c r).
    { pose proof (rinv_pair c I _ _ _ _ Hr Hd A). specialize (Hmin d Hd). lia. }
    eexists. eapply (rstep_comm V zero add prog SIZE r d tag c Hr Hd); [lia| |].
    + apply nth_prog. auto.
    + apply nth_prog. rewrite Epc. auto.
  - eexists. eapply (rstep_none V zero add prog SIZE r c Hr). apply nth_prog. auto.
Qed.

Lemma rfinal_value c : rinv c -> finished V prog SIZE c -> val V c 0 = big 0 SIZE.
Proof.
  intros I F. rewrite (rinv_val c I) by lia. rewrite F by lia. rewrite length_prog. unfold vs.
  rewrite Nat.mod_0_l by (pose proof (pow_pos R); lia). simpl.
  replace (Nat.min (2 ^ R) (SIZE - 0)) with SIZE by lia. reflexivity.
Qed.

Lemma rwork_decreases c c' : rinv c -> rstep c c' -> work c' < work c.
Proof.
  intros I H. unfold work. destruct H as [r c Hr Hn|s d tag c Hs Hd Hsd Hn1 Hn2].
  - apply nth_prog in Hn. destruct Hn as (Hlt & _). apply sum_map_lt with r; [lia| |]; upds.
    + intros y. destruct (Nat.eqb_spec y r); subst; lia.
    + rewrite Nat.eqb_refl. lia.
  - apply nth_prog in Hn1. apply nth_prog in Hn2.
    apply sum_map_lt with s; [lia| |]; upds.
    + intros y. destruct (Nat.eqb_spec y d), (Nat.eqb_spec y s); subst; lia.
    + rewrite Nat.eqb_refl. replace (s =? d) with false by lia. lia.
Qed.
End Exec.

(** * Statements about TREE itself *)
Section Final.
Variable V : Type.
Variable zero : V.
Variable add : V -> V -> V.
Hypothesis add_assoc : forall x y z, add x (add y z) = add (add x y) z.
Hypothesis add_0_l : forall x, add zero x = x.
Hypothesis add_0_r : forall x, add x zero = x.

Lemma step_ext P Q SIZE c c' : (forall r, r < SIZE -> P r = Q r) ->
  step V zero add P SIZE c c' -> step V zero add Q SIZE c c'.
Proof.
  intros E H. destruct H as [r c Hr Hn|r d tag c Hr Hn|r s tag v rest c Hr Hn Hch];
  rewrite E in Hn by assumption.
  - apply step_none; assumption.
  - apply step_send; assumption.
  - eapply step_recv; eassumption.
Qed.

Lemma rstep_ext P Q SIZE c c' : (forall r, r < SIZE -> P r = Q r) ->
  rstep V zero add P SIZE c c' -> rstep V zero add Q SIZE c c'.
Proof.
  intros E H. destruct H as [r c Hr Hn|s d tag c Hs Hd Hsd Hn1 Hn2].
  - rewrite E in Hn by assumption. apply rstep_none; assumption.
  - rewrite E in Hn1, Hn2 by assumption. eapply rstep_comm; eassumption.
Qed.

Lemma steps_ext (R1 R2 : config V -> config V -> Prop) c c' :
  (forall a b, R1 a b -> R2 a b) -> star R1 c c' -> star R2 c c'.
Proof. intros H S. induction S; [apply star_refl|eapply star_snoc; eauto]. Qed.

Theorem tree_async SIZE prog c0 : 1 <= SIZE ->
  (forall r, r < SIZE -> TREE SIZE r = Some (prog r)) ->
  forall c, star (step V zero add prog SIZE) (init V c0) c ->
    (finished V prog SIZE c \/ exists c', step V zero add prog SIZE c c') /\
    (finished V prog SIZE c ->
       val V c 0 = fold_right add zero (map c0 (seq 0 SIZE)) /\
       (forall r, 0 < r < SIZE -> val V c r = zero) /\
       (forall s d tag, chan V c s d tag = [])).
Proof.
  intros HS HT c H. destruct (TREE_form SIZE HS) as (R & HR1 & HR & HF).
  assert (E : forall r, r < SIZE -> prog r = TreeProofs.prog SIZE R r).
  { intros r Hr. specialize (HT r Hr). rewrite HF in HT by assumption. injection HT as <-. reflexivity. }
  assert (H' : star (step V zero add (TreeProofs.prog SIZE R) SIZE) (init V c0) c).
  { eapply steps_ext; [|exact H]. intros a b. apply step_ext. assumption. }
  pose proof (inv_steps V zero add add_assoc add_0_l add_0_r SIZE R HS HR c0 c H') as I.
  assert (EF : finished V prog SIZE c <-> finished V (TreeProofs.prog SIZE R) SIZE c).
  { split; intros F r Hr; [rewrite <- E by assumption|rewrite E by assumption]; auto. }
  split.
  - destruct (progress V zero add SIZE R HS HR c0 c I) as [F|(c' & S)].
    + left. apply EF. assumption.
    + right. exists c'. eapply step_ext; [|exact S]. intros r Hr. symmetry. auto.
  - intros F. apply EF in F. apply (final_value V zero add SIZE R HS HR c0 c I F).
Qed.

Theorem tree_rendezvous SIZE prog c0 : 1 <= SIZE ->
  (forall r, r < SIZE -> TREE SIZE r = Some (prog r)) ->
  forall c, star (rstep V zero add prog SIZE) (init V c0) c ->
    (finished V prog SIZE c \/ exists c', rstep V zero add prog SIZE c c') /\
    (finished V prog SIZE c -> val V c 0 = fold_right add zero (map c0 (seq 0 SIZE))).
Proof.
  intros HS HT c H. destruct (TREE_form SIZE HS) as (R & HR1 & HR & HF).
  assert (E : forall r, r < SIZE -> prog r = TreeProofs.prog SIZE R r).
  { intros r Hr. specialize (HT r Hr). rewrite HF in HT by assumption. injection HT as <-. reflexivity. }
  assert (H' : star (rstep V zero add (TreeProofs.prog SIZE R) SIZE) (init V c0) c).
  { eapply steps_ext; [|exact H]. intros a b. apply rstep_ext. assumption. }
  pose proof (rinv_steps V zero add add_assoc add_0_l add_0_r SIZE R HS HR c0 c H') as I.
  assert (EF : finished V prog SIZE c <-> finished V (TreeProofs.prog SIZE R) SIZE c).
  { split; intros F r Hr; [rewrite <- E by assumption|rewrite E by assumption]; auto. }
  split.
  - destruct (rprogress V zero add SIZE R HS HR c0 c I) as [F|(c' & S)].
    + left. apply EF. assumption.
    + right. exists c'. eapply rstep_ext; [|exact S]. intros r Hr. symmetry. auto.
  - intros F. apply EF in F. apply (rfinal_value V zero add SIZE R HS HR c0 c I F).
Qed.

(** every execution is bounded: each core makes at most length (prog r) steps *)
Theorem tree_bounded SIZE prog c0 : 1 <= SIZE ->
  (forall r, r < SIZE -> TREE SIZE r = Some (prog r)) ->
  forall n c, nsteps (step V zero add prog SIZE) n (init V c0) c ->
  n <= SIZE * length (prog 0).
Proof.
  intros HS HT n c H. destruct (TREE_form SIZE HS) as (R & HR1 & HR & HF).
  assert (E : forall r, r < SIZE -> prog r = TreeProofs.prog SIZE R r).
  { intros r Hr. specialize (HT r Hr). rewrite HF in HT by assumption. injection HT as <-. reflexivity. }
  assert (K : inv V zero add SIZE R c0 c /\ n + work V SIZE R c <= work V SIZE R (init V c0)).
  { remember (init V c0) as i eqn:Ei. induction H as [|n a b c H IH Hs]; subst.
    - split; [apply inv_init; assumption|lia].
    - destruct (IH eq_refl) as (I & L).
      assert (Hs' : step V zero add (TreeProofs.prog SIZE R) SIZE b c) by (eapply step_ext; eauto).
      split; [eapply inv_step; eauto|].
      pose proof (work_decreases V zero add SIZE R HS HR c0 b c I Hs'). lia. }
  destruct K as (_ & K). rewrite E by lia. rewrite length_prog.
  assert (W : work V SIZE R (init V c0) = SIZE * R).
  { unfold work. simpl pc. rewrite Nat.sub_0_r.
    assert (Q : forall l : list nat, sum (map (fun _ => R) l) = length l * R).
    { induction l as [|x l IHl]; simpl; [reflexivity|]. rewrite IHl. reflexivity. }
    rewrite Q, seq_length. reflexivity. }
  lia.
Qed.
End Final.

Lemma tree_total SIZE r : 1 <= SIZE -> r < SIZE -> exists l, TREE SIZE r = Some l.
Proof.
  intros HS Hr. destruct (TREE_form SIZE HS) as (R & _ & _ & HF). rewrite HF by assumption. eauto.
Qed.

Theorem tree_matched SIZE s d tag t ls : 1 <= SIZE -> s < SIZE ->
  TREE SIZE s = Some ls -> nth_error ls t = Some (Some (Send d tag)) ->
  d < s /\
  (exists ld, TREE SIZE d = Some ld /\ nth_error ld t = Some (Some (Recv s tag))) /\
  (* nobody else receives from s, and s does nothing afterwards *)
  (forall t' a, t < t' -> nth_error ls t' = Some a -> a = None).
Proof.
  intros HS Hs E Hn. destruct (TREE_form SIZE HS) as (R & _ & HR & HF).
  rewrite HF in E by assumption. injection E as <-.
  rewrite nth_error_map_seq, Nat.add_0_l in Hn.
  destruct (Nat.ltb_spec t R) as [Ht|]; [|discriminate]. injection Hn as Hn.
  pose proof (act_send_facts SIZE s d tag (2 ^ t) (pow_pos t) Hn) as (H1 & H2 & H3 & H4 & H5).
  split; [assumption|]. split.
  - exists (map (fun u => act SIZE d (2 ^ u)) (seq 0 R)). split; [apply HF; assumption|].
    rewrite nth_error_map_seq, Nat.add_0_l. replace (t <? R) with true by lia.
    f_equal. apply (proj1 (act_send_recv SIZE s d tag (2 ^ t) (pow_pos t))). assumption.
  - intros t' a Htt Ha. rewrite nth_error_map_seq, Nat.add_0_l in Ha.
    destruct (Nat.ltb_spec t' R) as [Ht'|]; [|discriminate]. injection Ha as <-.
    assert (N : s mod 2 ^ t' <> 0).
    { intros Z. apply H4. replace t' with (S t + (t' - S t)) in Z by lia.
      rewrite Nat.pow_add_r in Z. change (2 ^ S t) with (2 * 2 ^ t) in Z.
      pose proof (pow_pos t). pose proof (pow_pos (t' - S t)).
      assert (Dv : s = (2 * 2 ^ t * 2 ^ (t' - S t)) * (s / (2 * 2 ^ t * 2 ^ (t' - S t)))).
      { pose proof (Nat.div_mod s (2 * 2 ^ t * 2 ^ (t' - S t)) ltac:(nia)) as DM.
        rewrite Z in DM. lia. }
      rewrite Dv. rewrite <- Nat.mul_assoc. rewrite Nat.mul_comm. apply Nat.mod_mul. lia. }
    destruct (act SIZE s (2 ^ t')) as [[x y|x y]|] eqn:A; [| |reflexivity]; exfalso.
    + apply act_recv_facts in A; [|apply pow_pos]. tauto.
    + apply act_send_facts in A; [|apply pow_pos]. tauto.
Qed.

Theorem tree_matched_recv SIZE s d tag t ld : 1 <= SIZE -> d < SIZE ->
  TREE SIZE d = Some ld -> nth_error ld t = Some (Some (Recv s tag)) ->
  d < s < SIZE /\ exists ls, TREE SIZE s = Some ls /\ nth_error ls t = Some (Some (Send d tag)).
Proof.
  intros HS Hd E Hn. destruct (TREE_form SIZE HS) as (R & _ & HR & HF).
  rewrite HF in E by assumption. injection E as <-.
  rewrite nth_error_map_seq, Nat.add_0_l in Hn.
  destruct (Nat.ltb_spec t R) as [Ht|]; [|discriminate]. injection Hn as Hn.
  pose proof (act_recv_facts SIZE d s tag (2 ^ t) (pow_pos t) Hn) as (H1 & H2 & H3 & H4).
  pose proof (pow_pos t). split; [lia|].
  exists (map (fun u => act SIZE s (2 ^ u)) (seq 0 R)). split; [apply HF; assumption|].
  rewrite nth_error_map_seq, Nat.add_0_l. replace (t <? R) with true by lia.
  f_equal. apply (proj2 (act_send_recv SIZE s d tag (2 ^ t) (pow_pos t))). assumption.
Qed.
