(** Proofs about MiscModel: text and time formatting. *)
From Coq Require Import List Arith ZArith QArith Qround Qabs Bool Lia Psatz.
From Verif Require Import Prelude PreludeProofs MiscModel MiscSpec.
Import ListNotations.
Local Open Scope nat_scope.

(** * text *)
Lemma split_none : forall sep w, ~ In sep w -> split sep w = [w].
Proof.
  induction w as [|c w IH]; cbn [split]; intros H; [reflexivity|].
  destruct (c =? sep) eqn:E; [apply Nat.eqb_eq in E; exfalso; apply H; left; exact E|].
  rewrite IH; [reflexivity|]. intros X; apply H; right; exact X.
Qed.
Lemma split_app : forall sep w s, ~ In sep w -> split sep (w ++ sep :: s) = w :: split sep s.
Proof.
  induction w as [|c w IH]; cbn [split app]; intros s H.
  - rewrite Nat.eqb_refl. reflexivity.
  - destruct (c =? sep) eqn:E; [apply Nat.eqb_eq in E; exfalso; apply H; left; exact E|].
    rewrite IH; [reflexivity|]. intros X; apply H; right; exact X.
Qed.
Lemma but_last_1 : forall (s : text) c, but_last_k 1 (s ++ [c]) = s.
Proof.
  intros s c. unfold but_last_k. rewrite app_length. cbn [length].
  replace (length s + 1 - 1) with (length s) by lia.
  rewrite firstn_app, firstn_all, Nat.sub_diag. cbn. apply app_nil_r.
Qed.
Lemma inside_brackets : forall s, inside ([91] ++ s ++ [93]) = s.
Proof.
  intros s. unfold inside. rewrite app_assoc, but_last_1. reflexivity.
Qed.

Definition value (s : text) (a : Z) : Z := fold_left (fun a c => 10 * a + (Z.of_nat c - 48))%Z s a.
Lemma is_digit_ok : forall n, (0 <= n < 10)%Z -> is_digit (48 + Z.to_nat n) = true.
Proof. intros n H. unfold is_digit. apply andb_true_iff; split; apply Nat.leb_le; lia. Qed.
Lemma digits_of_ok : forall fuel n, (0 <= n < 2 ^ Z.of_nat fuel)%Z ->
  forallb is_digit (digits_of fuel n) = true /\ value (digits_of fuel n) 0 = n /\ (fuel <> 0 -> digits_of fuel n <> []).
Proof.
  induction fuel as [|f IH]; intros n H; cbn [digits_of].
  - cbn in H. split; [reflexivity|]. split; [cbn; lia | lia].
  - destruct (n <? 10)%Z eqn:E.
    + apply Z.ltb_lt in E. split; [|split].
      * cbn [forallb]. rewrite is_digit_ok by lia. reflexivity.
      * unfold value; cbn [fold_left]. lia.
      * discriminate.
    + apply Z.ltb_ge in E. destruct (IH (n / 10)%Z) as [A [B _]].
      { split; [apply Z.div_pos; lia|]. apply Z.div_lt_upper_bound; [lia|].
        rewrite Nat2Z.inj_succ, Z.pow_succ_r in H by lia. lia. }
      pose proof (Z.mod_pos_bound n 10 ltac:(lia)). pose proof (Z.div_mod n 10 ltac:(lia)).
      split; [|split].
      * rewrite forallb_app, A. cbn [forallb]. rewrite is_digit_ok by lia. reflexivity.
      * unfold value in *. rewrite fold_left_app, B. cbn [fold_left]. lia.
      * intros _ X. destruct (digits_of f (n / 10)); discriminate X.
Qed.
Lemma digits_ok : forall n, (0 <= n)%Z ->
  forallb is_digit (digits n) = true /\ value (digits n) 0 = n /\ digits n <> [].
Proof.
  intros n H. unfold digits. destruct (digits_of_ok (S (Z.to_nat (Z.log2 n))) n) as [A [B C]].
  - rewrite Nat2Z.inj_succ, Z2Nat.id by apply Z.log2_nonneg. split; [exact H|].
    destruct (Z.eq_dec n 0) as [->|N]; [reflexivity|]. apply Z.log2_spec. lia.
  - split; [exact A|]. split; [exact B|]. apply C. discriminate.
Qed.
Lemma zeros_ok : forall w n, (0 <= n)%Z ->
  forallb is_digit (zeros_to w (digits n)) = true /\ undigits (zeros_to w (digits n)) = Some n /\ zeros_to w (digits n) <> [].
Proof.
  intros w n H. destruct (digits_ok n H) as [A [B C]]. unfold zeros_to.
  set (k := w - length (digits n)). clearbody k.
  assert (D : forallb is_digit (repeat 48 k ++ digits n) = true).
  { rewrite forallb_app, A, andb_true_r. induction k; [reflexivity | exact IHk]. }
  assert (E : repeat 48 k ++ digits n <> []).
  { intros X. apply app_eq_nil in X. tauto. }
  split; [exact D|]. split; [|exact E].
  unfold undigits. rewrite D. destruct (repeat 48 k ++ digits n) eqn:F; [congruence|]. rewrite <- F.
  f_equal. change (value (repeat 48 k ++ digits n) 0 = n).
  unfold value in *. rewrite fold_left_app.
  replace (fold_left (fun a c => (10 * a + (Z.of_nat c - 48))%Z) (repeat 48 k) 0%Z) with 0%Z; [exact B|].
  clear. induction k; [reflexivity|]. cbn [repeat fold_left]. exact IHk.
Qed.
Lemma pyint_fmt : forall w z, pyint (fmt w z) = Some z.
Proof.
  intros w z. unfold fmt. destruct (z <? 0)%Z eqn:E.
  - apply Z.ltb_lt in E. cbn [pyint]. destruct (zeros_ok (w - 1) (- z) ltac:(lia)) as [_ [A _]].
    rewrite A. cbn [option_map]. f_equal. lia.
  - apply Z.ltb_ge in E. destruct (zeros_ok w z E) as [A [B C]].
    destruct (zeros_to w (digits z)) as [|c s]; [congruence|].
    cbn [forallb] in A. apply andb_true_iff in A. destruct A as [A _].
    unfold is_digit in A. apply andb_true_iff in A. destruct A as [A _]. apply Nat.leb_le in A.
    unfold pyint. do 46 (destruct c as [|c]; [first [exact B | exfalso; lia]|]). exact B.
Qed.
Lemma fmt_char : forall w z c, In c (fmt w z) -> c = 45 \/ (48 <= c <= 57).
Proof.
  intros w z c. unfold fmt.
  assert (G : forall w n, (0 <= n)%Z -> In c (zeros_to w (digits n)) -> 48 <= c <= 57).
  { intros v n H X. destruct (zeros_ok v n H) as [A _]. rewrite forallb_forall in A. specialize (A c X).
    unfold is_digit in A. apply andb_true_iff in A. destruct A as [A B].
    apply Nat.leb_le in A. apply Nat.leb_le in B. lia. }
  destruct (z <? 0)%Z eqn:E.
  - apply Z.ltb_lt in E. intros [X | X]; [left; congruence | right; apply (G (w - 1) (- z)%Z); [lia | exact X]].
  - apply Z.ltb_ge in E. intros X. right. apply (G w z E X).
Qed.
Lemma fmt_no : forall sep w z, sep = 58 \/ sep = 46 -> ~ In sep (fmt w z).
Proof. intros sep w z H X. apply fmt_char in X. lia. Qed.
Lemma fmt_two : forall n, (0 <= n < 100)%Z -> fmt 2 n = two_digits n.
Proof.
  intros n H. unfold fmt. destruct (n <? 0)%Z eqn:E; [apply Z.ltb_lt in E; lia|]. clear E.
  unfold two_digits, zeros_to.
  assert (C : forall k, k < 100 ->
    let n := Z.of_nat k in repeat 48 (2 - length (digits n)) ++ digits n = [48 + Z.to_nat (n / 10); 48 + Z.to_nat (n mod 10)]).
  { intros k K. do 100 (destruct k as [|k]; [reflexivity|]). lia. }
  specialize (C (Z.to_nat n) ltac:(lia)). cbv zeta in C. rewrite Z2Nat.id in C by lia. exact C.
Qed.

(** * rationals *)
Lemma floor_unique : forall q z, (inject_Z z <= q)%Q -> (q < inject_Z (z + 1))%Q -> Qfloor q = z.
Proof.
  intros q z A B. pose proof (Qfloor_le q) as C. pose proof (Qlt_floor q) as D.
  assert (X : (z < Qfloor q + 1)%Z) by (rewrite Zlt_Qlt; eapply Qle_lt_trans; eassumption).
  assert (Y : (Qfloor q < z + 1)%Z) by (rewrite Zlt_Qlt; eapply Qle_lt_trans; eassumption).
  lia.
Qed.
Lemma floor_sub : forall q j, Qfloor (q - inject_Z j) = (Qfloor q - j)%Z.
Proof.
  intros q j. pose proof (Qfloor_le q) as C. pose proof (Qlt_floor q) as D.
  apply floor_unique; unfold Z.sub; rewrite ?inject_Z_plus, ?inject_Z_opp in *; lra.
Qed.
Lemma floor_comp : forall p q, (p == q)%Q -> Qfloor p = Qfloor q.
Proof. intros p q H. rewrite H. reflexivity. Qed.
Lemma trunc_inject : forall z, truncQ (inject_Z z) = z.
Proof.
  intros z. unfold truncQ. destruct (Qle_bool 0 (inject_Z z)); [apply Qfloor_Z | apply Qceiling_Z].
Qed.
Lemma trunc_pos : forall q, (0 <= q)%Q -> truncQ q = Qfloor q.
Proof. intros q H. unfold truncQ. apply Qle_bool_iff in H. rewrite H. reflexivity. Qed.
Lemma trunc_comp : forall p q, (p == q)%Q -> truncQ p = truncQ q.
Proof.
  intros p q H. unfold truncQ. rewrite H. destruct (Qle_bool 0 q); rewrite H; reflexivity.
Qed.
Lemma divmod60 : forall q, let k := Qfloor (q / 60) in let '(m, s) := divmodQ q 60 in
  m = inject_Z k /\ truncQ s = (Qfloor q - 60 * k)%Z /\ (0 <= Qfloor q - 60 * k < 60)%Z /\ k = (Qfloor q / 60)%Z.
Proof.
  intros q k. unfold divmodQ. fold k. pose proof (Qfloor_le (q / 60)) as A. pose proof (Qlt_floor (q / 60)) as B.
  fold k in A, B. rewrite inject_Z_plus in B.
  assert (A' : (inject_Z k * 60 <= q)%Q).
  { setoid_replace q with (q / 60 * 60)%Q at 1 by field. apply Qmult_le_compat_r; [exact A | lra]. }
  assert (B' : (q < (inject_Z k + inject_Z 1) * 60)%Q).
  { setoid_replace q with (q / 60 * 60)%Q at 1 by field. apply Qmult_lt_compat_r; [reflexivity | exact B]. }
  assert (M : (inject_Z k * 60 == inject_Z (60 * k))%Q) by (rewrite inject_Z_mult; change (inject_Z 60) with 60%Q; ring).
  assert (N : ((inject_Z k + inject_Z 1) * 60 == inject_Z (60 * k + 60))%Q).
  { rewrite inject_Z_plus, inject_Z_mult. change (inject_Z 60) with 60%Q. change (inject_Z 1) with 1%Q. ring. }
  rewrite M in A'. rewrite N in B'.
  assert (R : (0 <= Qfloor q - 60 * k < 60)%Z).
  { pose proof (Qfloor_le q) as C. pose proof (Qlt_floor q) as D.
    assert (X : (60 * k < Qfloor q + 1)%Z) by (rewrite Zlt_Qlt; eapply Qle_lt_trans; eassumption).
    assert (Y : (Qfloor q < 60 * k + 60)%Z) by (rewrite Zlt_Qlt; eapply Qle_lt_trans; eassumption). lia. }
  split; [reflexivity|]. split; [|split; [exact R|]].
  - rewrite trunc_pos.
    + rewrite (floor_comp _ (q - inject_Z (60 * k))%Q) by (rewrite M; reflexivity). apply floor_sub.
    + rewrite M. lra.
  - apply (Z.div_unique _ _ _ (Qfloor q - 60 * k)); lia.
Qed.
Lemma divmod60Z : forall k, let '(h, m) := divmodQ (inject_Z k) 60 in
  truncQ h = (k / 60)%Z /\ truncQ m = (k mod 60)%Z.
Proof.
  intros k. pose proof (divmod60 (inject_Z k)) as H. cbv zeta in H. destruct (divmodQ (inject_Z k) 60) as [h m].
  destruct H as [A [B [C D]]]. rewrite Qfloor_Z in *. subst h. rewrite D in *.
  split; [apply trunc_inject|]. rewrite B. rewrite Z.mod_eq by lia. reflexivity.
Qed.

(** the three fields written after the brackets *)
Definition clock (z : Z) : text := fmt 2 (z / 3600) ++ [58] ++ two_digits ((z / 60) mod 60) ++ [58] ++ two_digits (z mod 60).
Lemma clock_parts : forall q,
  let '(minutes, seconds) := divmodQ q 60 in
  let '(hours, minutes) := divmodQ minutes 60 in
  truncQ hours = (Qfloor q / 3600)%Z /\ truncQ minutes = ((Qfloor q / 60) mod 60)%Z /\ truncQ seconds = (Qfloor q mod 60)%Z.
Proof.
  intros q. pose proof (divmod60 q) as H. cbv zeta in H. destruct (divmodQ q 60) as [m s]. destruct H as [A [B [C D]]].
  subst m. pose proof (divmod60Z (Qfloor (q / 60))) as G. destruct (divmodQ (inject_Z (Qfloor (q / 60))) 60) as [h m].
  destruct G as [E F]. rewrite E, F, B, D. rewrite Z.div_div by lia.
  split; [reflexivity|]. split; [reflexivity|]. rewrite Z.mod_eq by lia. reflexivity.
Qed.
Lemma mod_two : forall z, fmt 2 (z mod 60) = two_digits (z mod 60).
Proof. intros z. apply fmt_two. pose proof (Z.mod_pos_bound z 60 ltac:(lia)). lia. Qed.
Lemma seconds2hms_text : forall q, seconds2hms q = [91] ++ clock (Qfloor q) ++ [93].
Proof.
  intros q. unfold seconds2hms. pose proof (clock_parts q) as H. destruct (divmodQ q 60) as [m s].
  destruct (divmodQ m 60) as [h m']. destruct H as [-> [-> ->]]. unfold clock. rewrite !mod_two, <- !app_assoc. reflexivity.
Qed.
Definition days_of (q : Q) : Z := truncQ (q / 86400).
Definition rest_of (q : Q) : Z := (Qfloor q - 86400 * days_of q)%Z.
Lemma rest_floor : forall q, Qfloor (q - 86400 * inject_Z (truncQ (q / 86400))) = rest_of q.
Proof.
  intros q. unfold rest_of, days_of.
  rewrite (floor_comp _ (q - inject_Z (86400 * truncQ (q / 86400)))%Q); [apply floor_sub|].
  rewrite inject_Z_mult. reflexivity.
Qed.
Lemma seconds2dhms_text : forall q,
  seconds2dhms q = [91] ++ (fmt 1 (days_of q) ++ [58] ++ clock (rest_of q)) ++ [93].
Proof.
  intros q. unfold seconds2dhms. cbv zeta. fold (days_of q).
  pose proof (clock_parts (q - 86400 * inject_Z (days_of q))) as H.
  destruct (divmodQ (q - 86400 * inject_Z (days_of q)) 60) as [m s].
  destruct (divmodQ m 60) as [h m']. unfold days_of in H. rewrite rest_floor in H. destruct H as [-> [-> ->]].
  unfold clock. rewrite !mod_two, <- !app_assoc. reflexivity.
Qed.
Lemma split_clock : forall z, split 58 (clock z) = [fmt 2 (z / 3600); fmt 2 ((z / 60) mod 60); fmt 2 (z mod 60)].
Proof.
  intros z. unfold clock. rewrite <- !mod_two.
  change ([58] ++ fmt 2 ((z / 60) mod 60) ++ [58] ++ fmt 2 (z mod 60)) with
         (58 :: (fmt 2 ((z / 60) mod 60) ++ 58 :: fmt 2 (z mod 60))).
  rewrite !split_app by (apply fmt_no; tauto). rewrite split_none by (apply fmt_no; tauto). reflexivity.
Qed.
Lemma clock_value : forall z, (z / 3600 * 3600 + (z / 60) mod 60 * 60 + z mod 60 = z)%Z.
Proof.
  intros z. pose proof (Z.div_mod z 60 ltac:(lia)). pose proof (Z.div_mod (z / 60) 60 ltac:(lia)) as A.
  rewrite Z.div_div in A by lia. change (60 * 60)%Z with 3600%Z in A. lia.
Qed.
Lemma hms_round : forall q, hms2seconds (seconds2hms q) = Some (Qfloor q).
Proof.
  intros q. rewrite seconds2hms_text. unfold hms2seconds. rewrite inside_brackets, split_clock, !pyint_fmt, clock_value.
  reflexivity.
Qed.
Lemma dhms_round : forall q, dhms2seconds (seconds2dhms q) = Some (Qfloor q).
Proof.
  intros q. rewrite seconds2dhms_text. unfold dhms2seconds. rewrite inside_brackets.
  change (fmt 1 (days_of q) ++ [58] ++ clock (rest_of q)) with (fmt 1 (days_of q) ++ 58 :: clock (rest_of q)).
  rewrite split_app by (apply fmt_no; tauto). rewrite split_clock, !pyint_fmt. f_equal.
  pose proof (clock_value (rest_of q)) as A. unfold rest_of in *. lia.
Qed.
(** milliseconds *)
Definition millis (q : Q) : Z := truncQ ((q - inject_Z (truncQ q)) * 1000).
Lemma seconds2dhmsm_text : forall q,
  seconds2dhmsm q = ([91] ++ fmt 1 (days_of q) ++ [58] ++ clock (rest_of q)) ++ 46 :: (fmt 3 (millis q) ++ [93]).
Proof.
  intros q. unfold seconds2dhmsm. cbv zeta. fold (days_of q). fold (millis q).
  pose proof (clock_parts (q - 86400 * inject_Z (days_of q))) as H.
  destruct (divmodQ (q - 86400 * inject_Z (days_of q)) 60) as [m s].
  destruct (divmodQ m 60) as [h m']. unfold days_of in H. rewrite rest_floor in H. destruct H as [-> [-> ->]].
  unfold clock. rewrite !mod_two, <- !app_assoc. reflexivity.
Qed.
Lemma millis_pos : forall q, (0 <= q)%Q -> (Qfloor q * 1000 + millis q = Qfloor (q * 1000))%Z.
Proof.
  intros q H. unfold millis. rewrite (trunc_pos q H). pose proof (Qfloor_le q) as A.
  rewrite trunc_pos by (apply Qmult_le_0_compat; lra).
  rewrite (floor_comp ((q - inject_Z (Qfloor q)) * 1000)%Q (q * 1000 - inject_Z (Qfloor q * 1000))%Q).
  - rewrite floor_sub. lia.
  - rewrite inject_Z_mult. change (inject_Z 1000) with 1000%Q. ring.
Qed.
Lemma dhmsm_round : forall q, (0 <= q)%Q ->
  exists r, dhmsm2seconds (seconds2dhmsm q) = Some r /\ (r == inject_Z (Qfloor (q * 1000)) / 1000)%Q.
Proof.
  intros q H. rewrite seconds2dhmsm_text. unfold dhmsm2seconds.
  assert (N : ~ In 46 ([91] ++ fmt 1 (days_of q) ++ [58] ++ clock (rest_of q))).
  { unfold clock. rewrite <- !mod_two. rewrite !in_app_iff. cbn [In]. intros X.
    repeat (destruct X as [X | X]; [first [apply fmt_char in X; lia | lia] |]).
    first [apply fmt_char in X; lia | lia]. }
  assert (M : ~ In 46 (fmt 3 (millis q) ++ [93])).
  { rewrite in_app_iff. cbn [In]. intros [X | X]; [apply fmt_char in X; lia | lia]. }
  rewrite split_app by exact N. rewrite split_none by exact M. rewrite but_last_1, pyint_fmt.
  change (skipn 1 ([91] ++ fmt 1 (days_of q) ++ [58] ++ clock (rest_of q))) with (fmt 1 (days_of q) ++ 58 :: clock (rest_of q)).
  rewrite split_app by (apply fmt_no; tauto). rewrite split_clock, !pyint_fmt.
  eexists. split; [reflexivity|].
  rewrite <- millis_pos by exact H. rewrite (inject_Z_plus (Qfloor q * 1000)), (inject_Z_mult (Qfloor q)). change (inject_Z 1000) with 1000%Q.
  pose proof (clock_value (rest_of q)) as A. unfold rest_of in *.
  replace (days_of q * 86400 + (Qfloor q - 86400 * days_of q) / 3600 * 3600 + ((Qfloor q - 86400 * days_of q) / 60) mod 60 * 60
     + (Qfloor q - 86400 * days_of q) mod 60)%Z with (Qfloor q) by lia.
  field.
Qed.
Lemma hms_text : forall z, (0 <= z < 360000)%Z ->
  seconds2hms (inject_Z z) = [91] ++ two_digits (z / 3600) ++ [58] ++ two_digits (z / 60 mod 60) ++ [58] ++ two_digits (z mod 60) ++ [93].
Proof.
  intros z H. rewrite seconds2hms_text, Qfloor_Z. unfold clock. rewrite (fmt_two (z / 3600)).
  - rewrite <- !app_assoc. reflexivity.
  - split; [apply Z.div_pos; lia | apply Z.div_lt_upper_bound; lia].
Qed.
