(** Proofs about MiscModel: lists, caches, file names, piecewise functions, lines. *)
From Coq Require Import List Arith ZArith QArith Qround Qabs Bool Lia Psatz.
From Verif Require Import Prelude PreludeProofs MiscModel MiscSpec MiscProofs.
Import ListNotations.
Local Open Scope nat_scope.

(** * break_list_into_parts *)
Lemma clip_pos : forall n i, clip n (Z.of_nat i) = Nat.min n i.
Proof. intros n i. unfold clip. destruct (Z.of_nat i <? 0)%Z eqn:E; [apply Z.ltb_lt in E|]; lia. Qed.
Lemma pyslice_pos : forall A (l : list A) a p,
  pyslice l (Z.of_nat a) (Z.of_nat a + Z.of_nat p) = firstn p (skipn a l).
Proof.
  intros A l a p. unfold pyslice. rewrite <- Nat2Z.inj_add, !clip_pos.
  destruct (Nat.le_gt_cases (length l) a) as [H|H].
  - rewrite !Nat.min_l by lia. rewrite Nat.sub_diag. rewrite (skipn_all2 (n:=a)) by lia. rewrite firstn_nil. reflexivity.
  - rewrite (Nat.min_r (length l) a) by lia.
    destruct (Nat.le_gt_cases (length l) (a + p)) as [G|G].
    + rewrite Nat.min_l by lia. rewrite !firstn_all2; try reflexivity; rewrite skipn_length; lia.
    + rewrite Nat.min_r by lia. f_equal. lia.
Qed.
Lemma break_fold : forall A (L : list A) ps a R,
  snd (fold_left (fun '(start, RET) p => ((start + p)%Z, RET ++ [pyslice L start (start + p)])) (map Z.of_nat ps) (Z.of_nat a, R))
  = R ++ map (fun i => firstn (nth i ps 0) (skipn (a + sum (firstn i ps)) L)) (seq 0 (length ps)).
Proof.
  intros A L. induction ps as [|p ps IH]; intros a R; cbn [map fold_left length seq].
  - symmetry. apply app_nil_r.
  - rewrite pyslice_pos, <- Nat2Z.inj_add, IH, <- app_assoc. f_equal. cbn [app]. f_equal.
    + cbn [nth firstn sum fold_right]. rewrite Nat.add_0_r. reflexivity.
    + rewrite <- seq_shift, map_map. apply map_ext. intros i. cbn [nth firstn sum fold_right].
      replace (a + (p + fold_right Nat.add 0 (firstn i ps))) with (a + p + sum (firstn i ps)); [reflexivity|].
      unfold sum. lia.
Qed.
Lemma break_pieces : forall A (L : list A) ps, break_list_into_parts L (map Z.of_nat ps)
  = map (fun i => firstn (nth i ps 0) (skipn (sum (firstn i ps)) L)) (seq 0 (length ps)).
Proof. intros A L ps. unfold break_list_into_parts. change 0%Z with (Z.of_nat 0). rewrite break_fold. reflexivity. Qed.
Lemma concat_pieces : forall A ps (L : list A),
  concat (map (fun i => firstn (nth i ps 0) (skipn (sum (firstn i ps)) L)) (seq 0 (length ps))) = firstn (sum ps) L.
Proof.
  intros A. induction ps as [|p ps IH]; intros L; cbn [length seq map concat]; [reflexivity|].
  cbn [nth firstn]. change (sum []) with 0. cbn [skipn].
  rewrite <- seq_shift, map_map.
  rewrite (map_ext _ (fun i => firstn (nth i ps 0) (skipn (sum (firstn i ps)) (skipn p L)))).
  - rewrite IH. change (sum (p :: ps)) with (p + sum ps).
    clear. revert L. induction p as [|p IH]; intros L; cbn [Nat.add]; [reflexivity|].
    destruct L as [|x L]; [cbn; apply firstn_nil|]. cbn [firstn skipn app]. f_equal. apply IH.
  - intros i. cbn [nth firstn]. f_equal. change (sum (p :: firstn i ps)) with (p + sum (firstn i ps)).
    generalize (sum (firstn i ps)). intros k. clear. revert L. induction p; intros L; [reflexivity|].
    destruct L; [cbn; symmetry; apply skipn_nil | cbn; apply IHp].
Qed.
Lemma sum_firstn_le : forall (ps : list nat) i, i < length ps -> sum (firstn i ps) + nth i ps 0 <= sum ps.
Proof.
  induction ps as [|p ps IH]; intros i H; [cbn in H; lia|]. change (sum (p :: ps)) with (p + sum ps).
  destruct i as [|i]; [cbn; lia|]. cbn [length] in H. cbn [firstn nth]. change (sum (p :: firstn i ps)) with (p + sum (firstn i ps)).
  specialize (IH i ltac:(lia)). lia.
Qed.
Lemma break_ok : forall A (L : list A) ps,
  concat (break_list_into_parts L (map Z.of_nat ps)) = firstn (sum ps) L /\
  length (break_list_into_parts L (map Z.of_nat ps)) = length ps /\
  (sum ps <= length L -> map (@length A) (break_list_into_parts L (map Z.of_nat ps)) = ps).
Proof.
  intros A L ps. rewrite break_pieces. split; [apply concat_pieces|].
  split; [rewrite map_length, seq_length; reflexivity|].
  intros H. rewrite map_map. transitivity (map (fun i => nth i ps 0) (seq 0 (length ps))).
  - apply map_ext_in. intros i I0. apply in_seq in I0. pose proof (sum_firstn_le ps i ltac:(lia)).
    rewrite firstn_length, skipn_length. lia.
  - clear. induction ps as [|p ps IH]; [reflexivity|]. cbn [length seq map nth]. f_equal.
    rewrite <- seq_shift, map_map. exact IH.
Qed.

(** * memoize1 *)
Lemma text_eqb_eq : forall a b, text_eqb a b = true <-> a = b.
Proof. intros a b. unfold text_eqb. destruct (list_eq_dec Nat.eq_dec a b); split; congruence. Qed.
Section Memo.
  Variables (A B : Type) (key : A -> text) (f : A -> B).
  Definition agrees (cache : list (text * B)) (hist : list A) : Prop := forall k,
    option_map snd (find (fun p => text_eqb (fst p) k) cache) = option_map f (find (fun b => text_eqb (key b) k) hist).
  Lemma find_snoc : forall T (p : T -> bool) l x,
    find p (l ++ [x]) = match find p l with Some y => Some y | None => if p x then Some x else None end.
  Proof.
    intros T p l x. induction l as [|y l IH]; cbn; [destruct (p x); reflexivity|].
    destruct (p y); [reflexivity | exact IH].
  Qed.
  Lemma first_such_find : forall T (p : T -> bool) l d, first_such p l d = match find p l with Some y => y | None => d end.
  Proof. intros T p l d. induction l as [|y l IH]; cbn; [reflexivity|]. destruct (p y); [reflexivity | exact IH]. Qed.
  Lemma find_app : forall T (p : T -> bool) l m,
    find p (l ++ m) = match find p l with Some y => Some y | None => find p m end.
  Proof. intros T p l m. induction l as [|y l IH]; cbn; [reflexivity|]. destruct (p y); [reflexivity | exact IH]. Qed.
  Lemma memo_run_first : forall calls hist cache i a, agrees cache hist -> nth_error calls i = Some a ->
    nth_error (memo_run A B key f cache calls) i
    = Some (f (first_such (fun b => text_eqb (key b) (key a)) (hist ++ calls) a)).
  Proof.
    induction calls as [|c calls IH]; intros hist cache i a H E; [destruct i; discriminate E|].
    cbn [memo_run]. unfold memo_call. pose proof (H (key c)) as Hc.
    destruct (find (fun p => text_eqb (fst p) (key c)) cache) as [p|] eqn:F; cbn [option_map] in Hc.
    - destruct (find (fun b => text_eqb (key b) (key c)) hist) as [b|] eqn:G; [|discriminate Hc].
      cbn [option_map] in Hc. destruct i as [|i]; cbn [nth_error] in *.
      + injection E as <-. rewrite first_such_find, find_app, G. exact Hc.
      + rewrite (IH (hist ++ [c]) cache i a); [rewrite <- app_assoc; reflexivity | | exact E].
        intros k. rewrite find_snoc, H. destruct (find (fun b0 => text_eqb (key b0) k) hist) eqn:G'; [reflexivity|].
        destruct (text_eqb (key c) k) eqn:T; [|reflexivity]. apply text_eqb_eq in T. subst k. congruence.
    - destruct (find (fun b => text_eqb (key b) (key c)) hist) as [b|] eqn:G; [discriminate Hc|].
      destruct i as [|i]; cbn [nth_error] in *.
      + injection E as <-. rewrite first_such_find, find_app, G. cbn [find].
        rewrite (proj2 (text_eqb_eq _ _) eq_refl). reflexivity.
      + rewrite (IH (hist ++ [c]) ((key c, f c) :: cache) i a); [rewrite <- app_assoc; reflexivity | | exact E].
        intros k. rewrite find_snoc. cbn [find fst]. destruct (text_eqb (key c) k) eqn:T.
        * apply text_eqb_eq in T. subst k. rewrite G. reflexivity.
        * rewrite H. destruct (find (fun b0 => text_eqb (key b0) k) hist); reflexivity.
  Qed.
  Lemma memo_first : forall calls i a, nth_error calls i = Some a ->
    nth_error (memo_run A B key f [] calls) i = Some (f (first_such (fun b => text_eqb (key b) (key a)) calls a)).
  Proof. intros calls i a. apply (memo_run_first calls []). intros k. reflexivity. Qed.
  Lemma memo_ok : (forall a b, key a = key b -> f a = f b) -> forall calls, memo_run A B key f [] calls = map f calls.
  Proof.
    intros H calls.
    assert (G : forall calls cache, length (memo_run A B key f cache calls) = length calls).
    { induction calls0 as [|c calls0 IH]; intros cache; [reflexivity|]. cbn [memo_run].
      destruct (memo_call A B key f cache c). cbn [length]. f_equal. apply IH. }
    apply list_ext_nth_error. intros i. destruct (nth_error calls i) as [a|] eqn:E.
    - rewrite (memo_first _ _ _ E). rewrite nth_error_map, E. cbn [option_map]. f_equal. apply H.
      rewrite first_such_find. destruct (find _ calls) as [b|] eqn:F; [|reflexivity].
      apply find_some in F. apply text_eqb_eq. apply F.
    - rewrite nth_error_map, E. apply nth_error_None in E. apply nth_error_None. rewrite G. exact E.
  Qed.
End Memo.

(** * file names *)
Lemma count_app : forall c a b, count_char c (a ++ b) = count_char c a + count_char c b.
Proof. intros. unfold count_char. rewrite filter_app, app_length. reflexivity. Qed.
Lemma count_0 : forall c s, count_char c s = 0 <-> ~ In c s.
Proof.
  intros c s. unfold count_char. split.
  - intros H X. apply length_zero_iff_nil in H. assert (Y : In c (filter (Nat.eqb c) s)).
    { apply filter_In. split; [exact X | apply Nat.eqb_refl]. } rewrite H in Y. destruct Y.
  - intros H. destruct (filter (Nat.eqb c) s) as [|d l] eqn:E; [reflexivity|].
    assert (Y : In d (filter (Nat.eqb c) s)) by (rewrite E; left; reflexivity).
    apply filter_In in Y. destruct Y as [Y Z]. apply Nat.eqb_eq in Z. subst d. contradiction.
Qed.
Lemma under_id : forall s, ~ In 46 s -> under s = s.
Proof.
  induction s as [|c s IH]; intros H; [reflexivity|]. cbn [under map].
  destruct (c =? 46) eqn:E; [apply Nat.eqb_eq in E; exfalso; apply H; left; exact E|].
  f_equal. apply IH. intros X. apply H. right. exact X.
Qed.
Lemma under_no_dot : forall s, ~ In 46 (under s).
Proof.
  intros s X. apply in_map_iff in X. destruct X as [c [E _]]. destruct (c =? 46) eqn:F; [discriminate E|].
  apply Nat.eqb_neq in F. congruence.
Qed.
Lemma under_char : forall s c, c <> 95 -> In c (under s) -> In c s.
Proof.
  intros s c N X. apply in_map_iff in X. destruct X as [d [E I0]]. destruct (d =? 46); [congruence|]. subst d. exact I0.
Qed.
Lemma under_char_rev : forall s c, c <> 46 -> In c s -> In c (under s).
Proof.
  intros s c N X. apply in_map_iff. exists c. split; [|exact X]. destruct (c =? 46) eqn:E; [|reflexivity].
  apply Nat.eqb_eq in E. contradiction.
Qed.
Lemma under_app : forall a b, under (a ++ b) = under a ++ under b.
Proof. intros. apply map_app. Qed.
Lemma under_length : forall s, length (under s) = length s.
Proof. intros. apply map_length. Qed.
Lemma last_k_app : forall (a b : text), last_k (length b) (a ++ b) = b.
Proof.
  intros a b. unfold last_k. rewrite app_length. replace (length a + length b - length b) with (length a) by lia.
  rewrite skipn_app, skipn_all, Nat.sub_diag. reflexivity.
Qed.
Lemma but_last_k_app : forall (a b : text), but_last_k (length b) (a ++ b) = a.
Proof.
  intros a b. unfold but_last_k. rewrite app_length. replace (length a + length b - length b) with (length a) by lia.
  rewrite firstn_app, firstn_all, Nat.sub_diag. cbn. apply app_nil_r.
Qed.
Lemma last_k_split : forall k (s : text), s = but_last_k k s ++ last_k k s.
Proof. intros. unfold but_last_k, last_k. symmetry. apply firstn_skipn. Qed.
Lemma stem_total : forall s, exists stem, stem_of s stem.
Proof.
  intros s. unfold stem_of. change ending_mi with dot_mi. destruct (list_eq_dec Nat.eq_dec (last_k 3 s) dot_mi) as [E|E].
  - exists (but_last_k 3 s). left. rewrite <- E. apply last_k_split.
  - exists s. right. split; [reflexivity|]. intros t ->. apply E. apply (last_k_app t dot_mi).
Qed.
Lemma existsb_space : forall s, existsb (Nat.eqb 32) s = false <-> ~ In 32 s.
Proof.
  intros s. split.
  - intros H X. assert (Y : existsb (Nat.eqb 32) s = true); [|congruence].
    apply existsb_exists. exists 32. split; [exact X | reflexivity].
  - intros H. destruct (existsb (Nat.eqb 32) s) eqn:E; [|reflexivity]. apply existsb_exists in E.
    destruct E as [c [X Y]]. apply Nat.eqb_eq in Y. subst c. contradiction.
Qed.
Lemma spl_spec : forall s, check_no_splcharacter s = true <-> (forall c, In c s -> ~ In c special).
Proof.
  intros s. unfold check_no_splcharacter. rewrite negb_true_iff. split.
  - intros H c X Y. assert (E : existsb (fun c => existsb (Nat.eqb c) special) s = true); [|congruence].
    apply existsb_exists. exists c. split; [exact X|]. apply existsb_exists. exists c. split; [exact Y | apply Nat.eqb_refl].
  - intros H. destruct (existsb _ s) eqn:E; [|reflexivity]. apply existsb_exists in E. destruct E as [c [X Y]].
    apply existsb_exists in Y. destruct Y as [d [Y Z]]. apply Nat.eqb_eq in Z. subst d. exfalso. exact (H c X Y).
Qed.
Lemma mi_fine : forall stem, let g := under stem ++ dot_mi in
  count_char 46 g = 1 /\ last_k 3 g = dot_mi.
Proof.
  intros stem g. split; [|apply (last_k_app _ dot_mi)]. unfold g. rewrite count_app.
  rewrite (proj2 (count_0 46 (under stem)) (under_no_dot stem)). reflexivity.
Qed.
Lemma mi_value : forall s stem, stem_of s stem ->
  check_filename_mi s =
  if check_no_splcharacter s && (length s <=? 64) && negb (existsb (Nat.eqb 32) s) then Some (under stem ++ dot_mi) else None.
Proof.
  intros s stem H. unfold stem_of in H. change ending_mi with dot_mi in H. unfold check_filename_mi.
  destruct (check_no_splcharacter s); cbn [negb andb]; [|reflexivity].
  destruct (length s <=? 64); cbn [negb andb]; [|reflexivity].
  assert (F : (if text_eqb (last_k 3 s) dot_mi then s else s ++ dot_mi) = stem ++ dot_mi).
  { destruct (text_eqb (last_k 3 s) dot_mi) eqn:E.
    - apply text_eqb_eq in E. destruct H as [H | [H N]]; [exact H|]. exfalso. apply (N (but_last_k 3 s)).
      rewrite <- E. apply last_k_split.
    - destruct H as [H | [H N]]; [|rewrite H; reflexivity]. exfalso. rewrite H in E.
      change 3 with (length dot_mi) in E. rewrite (last_k_app stem dot_mi) in E. discriminate E. }
  rewrite F. cbv zeta.
  assert (G : (if 1 <? count_char 46 (stem ++ dot_mi)
     then but_last_k 3 (map (fun c => if c =? 46 then 95 else c) (stem ++ dot_mi)) ++ dot_mi else stem ++ dot_mi)
     = under stem ++ dot_mi).
  { destruct (1 <? count_char 46 (stem ++ dot_mi)) eqn:E.
    - fold (under (stem ++ dot_mi)). rewrite under_app.
      change 3 with (length (under dot_mi)). rewrite but_last_k_app. reflexivity.
    - apply Nat.ltb_ge in E. rewrite count_app in E. change (count_char 46 dot_mi) with 1 in E.
      rewrite under_id; [reflexivity|]. apply count_0. lia. }
  rewrite G. destruct (mi_fine stem) as [C D]. cbv zeta in C, D. rewrite C, D.
  rewrite (proj2 (text_eqb_eq dot_mi dot_mi) eq_refl). change (1 =? 1) with true. cbn [andb negb].
  assert (S0 : existsb (Nat.eqb 32) (under stem ++ dot_mi) = existsb (Nat.eqb 32) s).
  { destruct (existsb (Nat.eqb 32) s) eqn:E.
    - apply existsb_exists in E. destruct E as [c [X Y]]. apply Nat.eqb_eq in Y. subst c.
      apply existsb_exists. exists 32. split; [|reflexivity]. apply in_or_app. destruct H as [H | [H _]]; subst s.
      + apply in_app_or in X. destruct X as [X | X]; [left; apply under_char_rev; [lia | exact X] | right; exact X].
      + left. apply under_char_rev; [lia | exact X].
    - apply existsb_space. apply existsb_space in E. intros X. apply in_app_or in X. destruct X as [X | X].
      + apply under_char in X; [|lia]. apply E. destruct H as [H | [H _]]; subst s; [apply in_or_app; left; exact X | exact X].
      + cbn in X. lia. }
  rewrite S0. destruct (existsb (Nat.eqb 32) s); reflexivity.
Qed.
Lemma mi_accepts : forall s, (exists r, check_filename_mi s = Some r) <-> legal_mi s.
Proof.
  intros s. destruct (stem_total s) as [stem H]. rewrite (mi_value s stem H). unfold legal_mi. change forbidden with special.
  rewrite <- spl_spec.
  rewrite <- existsb_space. destruct (check_no_splcharacter s), (length s <=? 64) eqn:L, (existsb (Nat.eqb 32) s); cbn;
    try apply Nat.leb_le in L; try apply Nat.leb_gt in L;
    (split; [intros [r E]; first [discriminate E | repeat split; solve [congruence | lia]] |
             intros [P [Q0 R]]; first [discriminate P | discriminate R | lia | eexists; reflexivity]]).
Qed.
Lemma mi_result : forall s r, check_filename_mi s = Some r ->
  exists stem, stem_of s stem /\ r = under stem ++ dot_mi /\ count_char 46 r = 1 /\ ~ In 32 r /\ check_no_splcharacter r = true.
Proof.
  intros s r E. destruct (stem_total s) as [stem H]. exists stem. split; [exact H|].
  pose proof (proj1 (mi_accepts s) (ex_intro _ r E)) as [A [B C]].
  change forbidden with special in A. rewrite <- spl_spec in A.
  rewrite (mi_value s stem H) in E. destruct (_ && _); [|discriminate E]. injection E as <-.
  split; [reflexivity|]. split; [apply (mi_fine stem)|].
  assert (K : forall c, c <> 95 -> c <> 46 -> c <> 109 -> c <> 105 -> In c (under stem ++ dot_mi) -> In c s).
  { intros c N1 N2 N3 N4 X. apply in_app_or in X. destruct X as [X | X].
    - apply under_char in X; [|exact N1]. destruct H as [H | [H _]]; subst s; [apply in_or_app; left; exact X | exact X].
    - cbn in X. lia. }
  split.
  - intros X. apply C. apply K; try lia. exact X.
  - rewrite spl_spec in *. intros c X Y.
    assert (N : c <> 95 /\ c <> 46 /\ c <> 109 /\ c <> 105) by (cbn in Y; lia).
    exact (A c (K c (proj1 N) (proj1 (proj2 N)) (proj1 (proj2 (proj2 N))) (proj2 (proj2 (proj2 N))) X) Y).
Qed.
Lemma mi_idem : forall s r, check_filename_mi s = Some r -> length r <= 64 -> check_filename_mi r = Some r.
Proof.
  intros s r E L. destruct (mi_result s r E) as [stem [H [R [D [N C]]]]].
  assert (T : stem_of r (under stem)) by (left; exact R).
  rewrite (mi_value r _ T), C, (proj2 (Nat.leb_le _ _) L), (proj2 (existsb_space r) N). cbn [andb negb].
  rewrite (under_id (under stem)) by apply under_no_dot. rewrite R. reflexivity.
Qed.

(** * check_filename *)
Lemma split_app_gen : forall sep a s, split sep (a ++ sep :: s) = split sep a ++ split sep s.
Proof.
  induction a as [|c a IH]; intros s; cbn [split app].
  - rewrite Nat.eqb_refl. reflexivity.
  - rewrite IH. destruct (c =? sep); [reflexivity|].
    destruct (split sep a) as [|w ws] eqn:E; [|reflexivity].
    exfalso. clear - E. destruct a as [|d a]; [discriminate E|]. cbn [split] in E.
    destruct (d =? sep); [discriminate E|]. destruct (split sep a); discriminate E.
Qed.
Lemma split_not_nil : forall sep a, split sep a <> [].
Proof.
  intros sep a E. destruct a as [|d a]; [discriminate E|]. cbn [split] in E.
  destruct (d =? sep); [discriminate E|]. destruct (split sep a); discriminate E.
Qed.
Lemma join_split : forall a, join 95 (split 46 a) = under a.
Proof.
  induction a as [|c a IH]; [reflexivity|]. cbn [split under map].
  pose proof (split_not_nil 46 a) as N. destruct (c =? 46) eqn:E.
  - destruct (split 46 a) as [|w ws]; [congruence|]. fold (under a). rewrite <- IH. reflexivity.
  - destruct (split 46 a) as [|w ws]; [congruence|]. fold (under a). rewrite <- IH. reflexivity.
Qed.
Lemma last_dot : forall s, In 46 s -> exists a b, s = a ++ 46 :: b /\ ~ In 46 b.
Proof.
  induction s as [|c s IH]; intros H; [destruct H|]. destruct (in_dec Nat.eq_dec 46 s) as [X|X].
  - destruct (IH X) as [a [b [E N]]]. exists (c :: a), b. rewrite E. split; [reflexivity | exact N].
  - destruct H as [H | H]; [|contradiction]. exists [], s. subst c. split; [reflexivity | exact X].
Qed.
Definition name_ok (n : text) (e : option text) : bool :=
  negb (match e with Some e => forallb is_digit e | None => false end) && existsb is_alnum n
  && negb (match n with c :: _ => is_digit c | [] => true end) && negb (existsb (Nat.eqb 32) n).
Lemma filename_nodot : forall s, ~ In 46 s -> check_filename s =
  if check_no_splcharacter s && (length s <=? 64) && name_ok s None then Some (s, None) else None.
Proof.
  intros s H. unfold check_filename. apply count_0 in H. rewrite H.
  destruct (check_no_splcharacter s); cbn [negb andb]; [|reflexivity].
  destruct (length s <=? 64); cbn [negb andb]; [|reflexivity].
  change (1 <? 0) with false. cbv iota zeta. rewrite H. change (0 <=? 1) with true. change (0 =? 0) with true. cbn [negb]. unfold name_ok. cbn [negb andb].
  destruct (existsb is_alnum s); cbn [negb andb]; [|reflexivity].
  destruct (match s with c :: _ => is_digit c | [] => true end); cbn [negb andb]; [reflexivity|].
  destruct (existsb (Nat.eqb 32) s); reflexivity.
Qed.
Lemma filename_dot : forall a b, ~ In 46 b -> check_filename (a ++ 46 :: b) =
  if check_no_splcharacter (a ++ 46 :: b) && (length (a ++ 46 :: b) <=? 64) && name_ok (under a) (Some b)
  then Some (under a, Some b) else None.
Proof.
  intros a b H. unfold check_filename.
  destruct (check_no_splcharacter (a ++ 46 :: b)); cbn [negb andb]; [|reflexivity].
  destruct (length (a ++ 46 :: b) <=? 64); cbn [negb andb]; [|reflexivity].
  assert (F : (if 1 <? count_char 46 (a ++ 46 :: b)
     then let l := split 46 (a ++ 46 :: b) in join 95 (removelast l) ++ [46] ++ last l [] else a ++ 46 :: b) = under a ++ 46 :: b).
  { destruct (1 <? count_char 46 (a ++ 46 :: b)) eqn:E.
    - cbv zeta. rewrite split_app_gen, (split_none 46 b H), removelast_last, last_last, join_split. reflexivity.
    - apply Nat.ltb_ge in E. rewrite count_app in E. change (46 :: b) with ([46] ++ b) in E. rewrite count_app in E.
      change (count_char 46 [46]) with 1 in E. rewrite under_id; [reflexivity|]. apply count_0. lia. }
  cbv zeta in F |- *. rewrite F.
  assert (C : count_char 46 (under a ++ 46 :: b) = 1).
  { rewrite count_app. change (46 :: b) with ([46] ++ b). rewrite count_app.
    rewrite (proj2 (count_0 46 b) H), (proj2 (count_0 46 (under a)) (under_no_dot a)). reflexivity. }
  rewrite C. change (1 <=? 1) with true. change (1 =? 0) with false. cbn [negb]. rewrite split_app by apply under_no_dot. rewrite split_none by exact H.
  unfold name_ok. destruct (forallb is_digit b); cbn [negb andb]; [reflexivity|].
  destruct (existsb is_alnum (under a)); cbn [negb andb]; [|reflexivity].
  destruct (match under a with c :: _ => is_digit c | [] => true end); cbn [negb andb]; [reflexivity|].
  destruct (existsb (Nat.eqb 32) (under a)); reflexivity.
Qed.
Lemma spl_under : forall a b, check_no_splcharacter (a ++ b) = true -> check_no_splcharacter (under a ++ b) = true.
Proof.
  intros a b. rewrite !spl_spec. intros H c X Y. apply in_app_or in X. destruct X as [X | X].
  - apply under_char in X; [|cbn in Y; lia]. apply (H c); [apply in_or_app; left; exact X | exact Y].
  - apply (H c); [apply in_or_app; right; exact X | exact Y].
Qed.
Lemma filename_result : forall s p, check_filename s = Some p ->
  (rejoin p = s \/ exists a e, s = a ++ 46 :: e /\ p = (under a, Some e)) /\
  (match p with (n, e) => ~ In 46 n /\ match e with Some e => ~ In 46 e | None => True end end) /\
  length (rejoin p) = length s /\
  check_filename (rejoin p) = Some p.
Proof.
  intros s p E. destruct (in_dec Nat.eq_dec 46 s) as [X|X].
  - destruct (last_dot s X) as [a [b [-> N]]]. pose proof E as E0. rewrite (filename_dot a b N) in E.
    destruct (check_no_splcharacter (a ++ 46 :: b)) eqn:C; cbn [andb] in E; [|discriminate E].
    destruct (length (a ++ 46 :: b) <=? 64) eqn:L; cbn [andb] in E; [|discriminate E].
    destruct (name_ok (under a) (Some b)) eqn:O; [|discriminate E]. injection E as <-.
    split; [right; exists a, b; split; reflexivity|].
    split; [split; [apply under_no_dot | exact N]|].
    cbn [rejoin]. assert (LL : length (under a ++ 46 :: b) = length (a ++ 46 :: b)).
    { rewrite !app_length, under_length. reflexivity. }
    split; [exact LL|]. rewrite (filename_dot (under a) b N), LL, L, (spl_under a (46 :: b) C).
    rewrite (under_id (under a)) by apply under_no_dot. rewrite O. reflexivity.
  - pose proof E as E0. rewrite (filename_nodot s X) in E. destruct (_ && _) in E; [|discriminate E]. injection E as <-.
    split; [left; reflexivity|]. split; [split; [exact X | exact Logic.I]|]. split; [reflexivity | exact E0].
Qed.
