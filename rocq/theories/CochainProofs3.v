(** Proofs about CochainModel: vectors distributed to forms. *)
From Coq Require Import List Arith ZArith QArith Qcanon Bool Lia.
From Verif Require Import Prelude PreludeProofs AssembleModel MeshMapModel SpacingModel SpacingProofs GatherModel GatherSpec GatherProofs CochainModel CochainSpec CochainProofs CochainProofs2.
From Verif Require SpaceProofs.
Import ListNotations.
Local Open Scope nat_scope.

Lemma take_ok (V : list Qc) v : Forall (fun d => d < length V) v -> all_some (map (nth_error V) v) = Some (map (fun d => nth d V q0) v).
Proof.
  induction 1 as [|d v H F IH]; [reflexivity|]. cbn [map all_some]. rewrite IH. rewrite (nth_error_nth' V q0 H). reflexivity.
Qed.
Lemma take_short (V : list Qc) v d : In d v -> length V <= d -> all_some (map (nth_error V) v) = None.
Proof.
  induction v as [|x v IH]; [intros []|]. intros [->|H] Hd; cbn [map all_some]; [rewrite (proj2 (nth_error_None V d) Hd); reflexivity|]. rewrite (IH H Hd). destruct (nth_error V x); reflexivity.
Qed.
Lemma all_some_map {A B} (g : A -> option B) (h : A -> B) l : (forall a, In a l -> g a = Some (h a)) -> all_some (map g l) = Some (map h l).
Proof. induction l as [|a l IH]; intros H; [reflexivity|]. cbn [map all_some]. rewrite (H a (or_introl eq_refl)), IH by (intros; apply H; now right). reflexivity. Qed.
Lemma all_some_none {A B} (g : A -> option B) l a : In a l -> g a = None -> all_some (map g l) = None.
Proof. induction l as [|x l IH]; [intros []|]. intros [->|H] E; cbn [map all_some]; [rewrite E; reflexivity|]. rewrite (IH H E). destruct (g x); reflexivity. Qed.
Lemma set_full_ok gms K V : global_num_dofs gms = Some K -> K <= length V -> exists locs', set_full gms V = Some locs' /\ restored gms (fun d => nth d V q0) locs'.
Proof.
  intros HK L. exists (map (map (fun ev : nat * list nat => (fst ev, map (fun d => nth d V q0) (snd ev)))) gms). split.
  - unfold set_full. apply all_some_map. intros gm Hg. apply all_some_map. intros [e v] He. cbn [fst snd]. rewrite take_ok; [reflexivity|]. apply Forall_forall. intros d Hd. apply In_nth_error in Hg as (r & Hr).
    assert (X := K_bound gms K HK r e v d). rewrite (nth_error_nth _ _ _ Hr) in X. specialize (X He Hd). lia.
  - split; [rewrite map_map; apply map_ext; intros gm; rewrite map_map; reflexivity|]. intros r e v He. assert (Hr : r < length gms) by (destruct (Nat.lt_ge_cases r (length gms)); [assumption|rewrite nth_overflow in He by assumption; destruct He]).
    set (g := map (fun ev : nat * list nat => (fst ev, map (fun d => nth d V q0) (snd ev)))). change (In (e, map (fun d => nth d V q0) v) (nth r (map g gms) (g []))). rewrite map_nth. unfold g. apply in_map_iff. exists (e, v). auto.
Qed.
Lemma top_occurs gms K : global_num_dofs gms = Some K -> exists r e v, In (e, v) (nth r gms []) /\ In (K - 1) v.
Proof.
  unfold global_num_dofs. destruct (existsb _ _) eqn:X; [discriminate|]. destruct (map snd (concat gms)) as [|v0 vs] eqn:E; [discriminate|]. intros H.
  assert (KE : K = S (maxl (concat (v0 :: vs)))) by congruence. assert (M : In (maxl (concat (v0 :: vs))) (concat (v0 :: vs))).
  { assert (G : forall l, l <> [] -> In (maxl l) l).
    { clear. induction l as [|x l IH]; [contradiction|]. intros _. unfold maxl. cbn [fold_right]. destruct l as [|y l]; [cbn; left; lia|]. fold (maxl (y :: l)). assert (I := IH ltac:(discriminate)). destruct (Nat.max_dec x (maxl (y :: l))) as [->| ->]; [now left|now right]. }
    apply G. cbn [existsb] in X. destruct v0; [discriminate|discriminate]. }
  rewrite <- E in M. apply in_concat in M as (v & Hv & Hm). apply in_map_iff in Hv as ([e v'] & <- & He). apply in_concat in He as (gm & Hg & He). apply In_nth_error in Hg as (r & Hr). exists r, e, v'.
  split; [rewrite (nth_error_nth _ _ _ Hr); exact He|]. rewrite KE, <- E. cbn [snd] in Hm. replace (S (maxl (concat (map snd (concat gms)))) - 1) with (maxl (concat (map snd (concat gms)))) by lia. exact Hm.
Qed.
Lemma set_full_short gms K V : global_num_dofs gms = Some K -> length V < K -> set_full gms V = None.
Proof.
  intros HK L. destruct (top_occurs gms K HK) as (r & e & v & He & Hd). unfold set_full. apply (all_some_none _ gms (nth r gms [])).
  - apply nth_In. destruct (Nat.lt_ge_cases r (length gms)); [assumption|]. rewrite nth_overflow in He by assumption. destruct He.
  - apply (all_some_none _ _ (e, v) He). cbn [fst snd]. rewrite (take_short V v (K - 1) Hd) by lia. reflexivity.
Qed.
Lemma length_slice V a n : length (slice_of V a n) = min n (length V - a).
Proof. unfold slice_of. rewrite firstn_length, skipn_length. reflexivity. Qed.
Lemma nth_slice V a n d : d < n -> nth d (slice_of V a n) q0 = nth (a + d) V q0.
Proof.
  intros H. unfold slice_of. assert (G : forall (l : list Qc) a d, nth d (skipn a l) q0 = nth (a + d) l q0) by (induction l as [|x l IH]; intros [|b] e; cbn; try reflexivity; [now destruct e|apply IH]).
  rewrite <- G. generalize (skipn a V). intros l. revert n d H. induction l as [|x l IH]; intros [|n] [|d] H; cbn; try reflexivity; try lia. apply IH. lia.
Qed.
Lemma distribute_ok V s : forall gs ns i, Forall2 (fun g n => global_num_dofs g = Some n) gs ns -> i + sum ns <= length V ->
  exists ls, distribute V s i (map Some gs) = Some (map Some ls) /\ length ls = length gs /\ forall j g l, nth_error gs j = Some g -> nth_error ls j = Some l -> restored g (fun d => nth (i + sum (firstn j ns) + d) V q0) l.
Proof.
  intros gs ns i F. revert i. induction F as [|g n gs ns Hg F IH]; intros i H.
  - exists []. split; [reflexivity|]. split; [reflexivity|]. intros [|j] g l E; discriminate.
  - cbn [sum fold_right] in H. fold (sum ns) in H. destruct (set_full_ok g n (slice_of V i n) Hg) as (l0 & E0 & R0); [rewrite length_slice; lia|]. destruct (IH (i + n) ltac:(lia)) as (ls & E & L & R).
    exists (l0 :: ls). split; [cbn [map distribute]; rewrite Hg, E0, E; reflexivity|]. split; [cbn; congruence|]. intros [|j] g' l' Eg El.
    + injection Eg as <-. injection El as <-. revert R0. apply restored_ext. intros r e v d He Hd. rewrite nth_slice by exact (K_bound g n Hg r e v d He Hd). cbn. f_equal. lia.
    + cbn [nth_error] in Eg, El. generalize (R j g' l' Eg El). apply restored_ext. intros r e v d _ _. cbn [firstn sum fold_right]. fold (sum (firstn j ns)). f_equal. lia.
Qed.
Lemma distribute_short V s : forall gs ns i, Forall2 (fun g n => global_num_dofs g = Some n) gs ns -> length V < i + sum ns -> i <= length V -> distribute V s i (map Some gs) = None.
Proof.
  intros gs ns i F. revert i. induction F as [|g n gs ns Hg F IH]; intros i H Hi; [cbn in H; lia|]. cbn [sum fold_right] in H. fold (sum ns) in H. cbn [map distribute]. rewrite Hg.
  destruct (Nat.lt_ge_cases (length V) (i + n)).
  - rewrite (set_full_short g n) by (first [exact Hg|rewrite length_slice; lia]). reflexivity.
  - rewrite (IH (i + n)) by lia. destruct (set_full _ _); reflexivity.
Qed.
Lemma count_some gs : count_none (map Some gs) = 0.
Proof. unfold count_none. induction gs; [reflexivity|exact IHgs]. Qed.
Theorem distributed_ok V gs ns : Forall2 (fun g n => global_num_dofs g = Some n) gs ns ->
  (sum ns <= length V -> exists ls, distributed_to V (map Some gs) = Some (map Some ls) /\ length ls = length gs /\ forall j g l, nth_error gs j = Some g -> nth_error ls j = Some l -> restored g (fun d => nth (sum (firstn j ns) + d) V q0) l) /\
  (length V < sum ns -> distributed_to V (map Some gs) = None).
Proof.
  intros F. unfold distributed_to. rewrite count_some. split.
  - intros H. exact (distribute_ok V 0 gs ns 0 F H).
  - intros H. apply (distribute_short V 0 gs ns 0 F); lia.
Qed.
Lemma all_some_dofs gs ns : Forall2 (fun g n => global_num_dofs g = Some n) gs ns -> all_some (map (fun g => match g with None => Some 0 | Some g => global_num_dofs g end) (map Some gs)) = Some ns.
Proof. induction 1 as [|g n gs ns H F IH]; [reflexivity|]. cbn [map all_some]. rewrite H, IH. reflexivity. Qed.
Lemma all_some_app {A} (l m : list (option A)) x y : all_some l = Some x -> all_some m = Some y -> all_some (l ++ m) = Some (x ++ y).
Proof.
  revert x. induction l as [|[a|] l IH]; intros x E F; [injection E as <-; exact F| |discriminate]. cbn [app all_some] in *. destruct (all_some l) as [t|]; [|discriminate]. injection E as <-. rewrite (IH t eq_refl F). reflexivity.
Qed.
Lemma distribute_app V s gs hs i ls : forall ns, Forall2 (fun g n => global_num_dofs g = Some n) gs ns -> distribute V s i (map Some gs) = Some (map Some ls) ->
  distribute V s i (map Some gs ++ hs) = option_map (app (map Some ls)) (distribute V s (i + sum ns) hs).
Proof.
  intros ns F. revert i ls. induction F as [|g n gs ns Hg F IH]; intros i ls E.
  - cbn in E. injection E as E. destruct ls; [|discriminate]. cbn. rewrite Nat.add_0_r. destruct (distribute _ _ _ _); reflexivity.
  - cbn [map distribute app] in *. rewrite Hg in *. destruct (set_full _ _) as [l|]; [|discriminate]. destruct (distribute V s (i + n) (map Some gs)) as [t|] eqn:Et; [|discriminate]. injection E as E.
    destruct ls as [|l' ls]; [discriminate|]. cbn [map] in E. injection E as E1 E2. subst l' t. rewrite (IH _ _ Et). cbn [sum fold_right]. fold (sum ns). rewrite Nat.add_assoc. destruct (distribute _ _ _ hs); reflexivity.
Qed.
Theorem distributed_none V gs hs ns ms : Forall2 (fun g n => global_num_dofs g = Some n) gs ns -> Forall2 (fun g n => global_num_dofs g = Some n) hs ms ->
  let a := map Some gs ++ None :: map Some hs in
  (sum ns + sum ms < length V -> exists ls ks, distributed_to V a = Some (map Some ls ++ None :: map Some ks) /\ length ls = length gs /\ length ks = length hs /\
    (forall j g l, nth_error gs j = Some g -> nth_error ls j = Some l -> restored g (fun d => nth (sum (firstn j ns) + d) V q0) l) /\
    (forall j g l, nth_error hs j = Some g -> nth_error ks j = Some l -> restored g (fun d => nth (length V - sum ms + sum (firstn j ms) + d) V q0) l)) /\
  (length V <= sum ns + sum ms -> distributed_to V a = None).
Proof.
  intros F G a. assert (C : count_none a = 1).
  { unfold count_none, a. rewrite filter_app, app_length. cbn [filter length]. assert (X := count_some gs). assert (Y := count_some hs). unfold count_none in X, Y. rewrite X, Y. reflexivity. }
  assert (D : all_some (map (fun g => match g with None => Some 0 | Some g => global_num_dofs g end) a) = Some (ns ++ 0 :: ms)).
  { unfold a. rewrite map_app. apply all_some_app; [apply all_some_dofs; exact F|]. cbn [map all_some]. rewrite (all_some_dofs hs ms G). reflexivity. }
  assert (SE : sum (ns ++ 0 :: ms) = sum ns + sum ms) by (rewrite sum_app; reflexivity).
  unfold distributed_to. rewrite C, D, SE. split.
  - intros H. rewrite (proj2 (Nat.leb_gt _ _) H). destruct (distribute_ok V (length V - (sum ns + sum ms)) gs ns 0 F ltac:(lia)) as (ls & El & Ll & Rl).
    destruct (distribute_ok V (length V - (sum ns + sum ms)) hs ms (sum ns + (length V - (sum ns + sum ms))) G ltac:(lia)) as (ks & Ek & Lk & Rk).
    exists ls, ks. split; [unfold a; rewrite (distribute_app V _ gs _ 0 ls ns F El); cbn [Nat.add distribute]; rewrite Ek; reflexivity|]. split; [exact Ll|]. split; [exact Lk|]. split; [exact Rl|].
    intros j g l Eg El'. generalize (Rk j g l Eg El'). apply restored_ext. intros r e v d _ _. f_equal. lia.
  - intros H. rewrite (proj2 (Nat.leb_le _ _) H). reflexivity.
Qed.
