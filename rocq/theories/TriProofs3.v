From Coq Require Import List Arith ZArith Bool Lia Reals.
From Verif Require Import Prelude TriModel TriSpec TriProofs2.
Import ListNotations.

Lemma sequence_some {A} (l : list (option A)) r : sequence l = Some r -> l = map Some r.
Proof.
  revert r. induction l as [|[a|] l IH]; intros r H; cbn in H; [|destruct (sequence l) as [r'|]; [|discriminate]|discriminate].
  - injection H as <-. reflexivity.
  - injection H as <-. cbn. rewrite <- (IH r' eq_refl). reflexivity.
Qed.
Lemma sequence_none {A} (l : list (option A)) : sequence l = None -> In None l.
Proof.
  induction l as [|[a|] l IH]; intros H; cbn in H; [discriminate| |left; reflexivity].
  destruct (sequence l); [discriminate|]. right. apply IH. reflexivity.
Qed.
Lemma tri_edges_ends t m : m < 3 -> nth_error (tri_edges t) m = Some (ends t m).
Proof. destruct t as [[a b] c]. intros H. three m; reflexivity. Qed.
Lemma filter_one {A} (f : A -> bool) l x : filter f l = [x] ->
  exists l1 l2, l = l1 ++ x :: l2 /\ f x = true /\ forall y, In y (l1 ++ l2) -> f y = false.
Proof.
  induction l as [|a l IH]; cbn; intros H; [discriminate|]. destruct (f a) eqn:E.
  - injection H as <- H. exists [], l. split; [reflexivity|]. split; [exact E|]. intros y Hy. cbn in Hy.
    destruct (f y) eqn:Ey; [|reflexivity]. assert (In y (filter f l)) by (apply filter_In; auto). rewrite H in H0. destruct H0.
  - destruct (IH H) as (l1 & l2 & -> & E1 & E2). exists (a :: l1), l2. split; [reflexivity|]. split; [exact E1|].
    intros y [<-|Hy]; [exact E|apply E2; exact Hy].
Qed.
Section Parse.
  Variables (conds : list (nat * (point -> bool))) (pts : list point) (cells : list tri).
  Lemma parse_side_ok t m x y : m < 3 -> parse_side conds pts t m x = Some y ->
    match x with
    | Some (j, s, n) => y = SI j s n
    | None => exists b, y = SB b /\ one_condition conds pts t m b
    end.
  Proof.
    intros Hm H. unfold parse_side in H. destruct x as [[[j s] n]|]; [injection H as <-; reflexivity|].
    rewrite (tri_edges_ends t m Hm) in H. destruct (ends t m) as [a b] eqn:E.
    destruct (filter _ conds) as [|[n c] [|]] eqn:F; [discriminate| |discriminate].
    injection H as <-. exists n. split; [reflexivity|]. apply filter_one in F. destruct F as (l1 & l2 & -> & F1 & F2).
    exists l1, l2, c. split; [reflexivity|]. unfold holds_on. rewrite E. cbn [fst snd] in *. change (at_point pts) with (pt pts) in *.
    split; [apply andb_prop; exact F1|].
    intros b' cond' Hin [H1 H2]. specialize (F2 _ Hin). cbn [snd] in F2. rewrite H1, H2 in F2. discriminate.
  Qed.
  Lemma parse_side_none t m x : m < 3 -> parse_side conds pts t m x = None -> x = None /\ forall b, ~ one_condition conds pts t m b.
  Proof.
    intros Hm H. unfold parse_side in H. destruct x as [[[j s] n]|]; [discriminate|]. split; [reflexivity|].
    rewrite (tri_edges_ends t m Hm) in H. destruct (ends t m) as [a b] eqn:E.
    intros nm (l1 & l2 & c & -> & [H1 H2] & Ho). rewrite E in H1, H2. cbn [fst snd] in *. change (at_point pts) with (pt pts) in *.
    assert (Z : forall l, (forall b' cond', In (b', cond') l -> ~ holds_on pts t m cond') ->
      filter (fun c : nat * (point -> bool) => snd c (pt pts a) && snd c (pt pts b)) l = []).
    { induction l as [|[b' c'] l IH]; intros Hl; [reflexivity|]. cbn [filter snd].
      destruct (c' (pt pts a) && c' (pt pts b)) eqn:B.
      - exfalso. apply (Hl b' c'); [left; reflexivity|]. unfold holds_on. rewrite E. cbn [fst snd]. apply andb_prop. exact B.
      - apply IH. intros b'' c'' Hin. apply (Hl b'' c''). right. exact Hin. }
    rewrite filter_app in H. cbn [filter snd] in H. rewrite H1, H2 in H. cbn [andb] in H.
    rewrite (Z l1), (Z l2) in H; [discriminate| |]; intros b' c' Hin; apply (Ho b' c'); apply in_or_app; auto.
  Qed.
  Lemma combine_seq_nth {A} (l : list A) s k d : k < length l -> nth_error (combine (seq s (length l)) l) k = Some (s + k, nth k l d).
  Proof.
    revert s k. induction l as [|a l IH]; intros s k H; [cbn in H; lia|]. destruct k as [|k]; cbn.
    - rewrite Nat.add_0_r. reflexivity.
    - cbn in H. rewrite IH by lia. f_equal. f_equal. lia.
  Qed.
  Lemma nth_combine {A B} (l : list A) (l' : list B) k d d' : length l = length l' -> k < length l ->
    nth_error (combine l l') k = Some (nth k l d, nth k l' d').
  Proof.
    revert l' k. induction l as [|a l IH]; intros [|b l'] k E H; cbn in *; try lia. destruct k as [|k]; [reflexivity|].
    apply IH; lia.
  Qed.
  Lemma parse_ok M M' : describes_marks cells M -> parse_boundaries conds pts cells M = Some M' ->
    describes cells M' /\
    forall c m b, c < length cells -> m < 3 -> side_at M' c m = SB b -> one_condition conds pts (cl cells c) m b.
  Proof.
    intros [L1 L2] H. apply sequence_some in H.
    assert (LM : length M' = length cells).
    { apply (f_equal (@length _)) in H. rewrite !map_length, combine_length in H. lia. }
    assert (K : forall c m, c < length cells -> m < 3 ->
      parse_side conds pts (cl cells c) m (nth m (nth c M []) None) = Some (side_at M' c m)).
    { intros c m Hc Hm. destruct (L2 c Hc) as [L3 _].
      assert (E : nth_error (map (fun cl => parse_sides conds pts (fst cl) (snd cl)) (combine cells M)) c = Some (Some (nth c M' []))).
      { rewrite H. rewrite nth_error_map. rewrite (nth_error_nth' M' []) by lia. reflexivity. }
      rewrite nth_error_map, (nth_combine cells M c (0, 0, 0) []) in E by lia. cbn [option_map fst snd] in E.
      injection E as E. apply sequence_some in E. unfold cl.
      assert (LS : length (nth c M' []) = 3).
      { apply (f_equal (@length _)) in E. rewrite !map_length, combine_length, seq_length in E. lia. }
      apply (f_equal (fun l => nth_error l m)) in E. cbv beta in E.
      rewrite !nth_error_map in E. rewrite (@combine_seq_nth mark (nth c M []) 0 m None) in E by lia.
      rewrite (nth_error_nth' (nth c M' []) (SB 0)) in E by lia.
      cbn [option_map fst snd Nat.add] in E. injection E as E. exact E. }
    split; [split; [exact LM|]|].
    - intros c m Hc Hm. specialize (K c m Hc Hm). apply parse_side_ok in K; [|exact Hm].
      destruct (L2 c Hc) as [_ L4]. specialize (L4 m Hm).
      destruct (nth m (nth c M []) None) as [[[j s] n]|].
      + rewrite K. exact L4.
      + destruct K as (b & -> & _). exact L4.
    - intros c m b Hc Hm E. specialize (K c m Hc Hm). apply parse_side_ok in K; [|exact Hm].
      destruct (nth m (nth c M []) None) as [[[j s] n]|]; [congruence|].
      destruct K as (b' & E' & O). rewrite E in E'. injection E' as <-. exact O.
  Qed.
  Lemma parse_none M : describes_marks cells M -> parse_boundaries conds pts cells M = None ->
    exists c m, c < length cells /\ m < 3 /\
      (forall j n, j < length cells -> n < 3 -> j <> c -> ~ same_line cells c m j n) /\
      forall b, ~ one_condition conds pts (cl cells c) m b.
  Proof.
    intros [L1 L2] H. apply sequence_none in H. apply in_map_iff in H. destruct H as ([t l] & E & Hin).
    apply In_nth_error in Hin. destruct Hin as (c & Hc).
    assert (c < length cells) as Lc.
    { assert (c < length (combine cells M)) as A by (apply nth_error_Some; congruence). rewrite combine_length in A. lia. }
    rewrite (nth_combine cells M c (0, 0, 0) []) in Hc by lia. injection Hc as <- <-. cbn [fst snd] in E.
    apply sequence_none in E. apply in_map_iff in E. destruct E as ([m x] & E & Hin).
    apply In_nth_error in Hin. destruct Hin as (k & Hk). destruct (L2 c Lc) as [L3 L4].
    assert (k < 3) as Lk.
    { assert (k < length (combine (seq 0 (length (nth c M []))) (nth c M []))) as A by (apply nth_error_Some; congruence).
      rewrite combine_length in A. lia. }
    rewrite (@combine_seq_nth mark (nth c M []) 0 k None) in Hk by lia. injection Hk as <- <-. cbn [fst snd Nat.add] in E.
    fold (cl cells c) in E. apply parse_side_none in E; [|exact Lk]. destruct E as [E1 E2]. exists c, k. specialize (L4 k Lk). rewrite E1 in L4. auto.
  Qed.
End Parse.
Lemma oriented_cells_ok pts cells cells' : oriented_cells pts cells = Some cells' ->
  length cells' = length cells /\
  forall c, c < length cells -> ccw pts (cl cells' c) /\
    (cl cells' c = cl cells c \/ cl cells' c = (corner (cl cells c) 0, corner (cl cells c) 2, corner (cl cells c) 1)).
Proof.
  intros H. apply sequence_some in H.
  assert (L : length cells' = length cells) by (apply (f_equal (@length _)) in H; rewrite !map_length in H; lia).
  split; [exact L|]. intros c Hc. apply (f_equal (fun l => nth_error l c)) in H. rewrite !nth_error_map in H.
  rewrite (nth_error_nth' cells (0, 0, 0)) in H by lia. rewrite (nth_error_nth' cells' (0, 0, 0)) in H by lia.
  cbn [option_map] in H. injection H as H. fold (cl cells c) in H. fold (cl cells' c) in H. apply oriented_ok in H. exact H.
Qed.
