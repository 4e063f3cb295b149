(** Views of the local numbering arrays: sides, edges, interior. *)
From Coq Require Import List Arith ZArith Lia Bool.
From Verif Require Import Prelude PreludeProofs SpaceModel SpaceSpec SpaceProofs SpaceProofs2.
Import ListNotations.

(** which indices an axis selects *)
Definition selp (x : sel) (n i : nat) : bool :=
  match x with Fst => i =? 0 | Lst => i =? n - 1 | All => true | Inn => (1 <=? i) && (i <? n - 1) end.
Lemma filter_seq_one a n k : a <= k < a + n -> filter (fun i => i =? k) (seq a n) = [k].
Proof.
  revert a. induction n as [|n IH]; intros a H; [lia|]. cbn [seq filter]. destruct (Nat.eqb_spec a k) as [->|D].
  - f_equal. rewrite (filter_ext_in _ (fun _ => false)).
    + clear. induction (seq (S k) n); auto.
    + intros x Hx. apply in_seq in Hx. apply Nat.eqb_neq. lia.
  - apply IH. lia.
Qed.
Lemma filter_all {A} (f : A -> bool) l : (forall a, In a l -> f a = true) -> filter f l = l.
Proof.
  induction l as [|a l IH]; intros H; [reflexivity|]. cbn [filter]. rewrite (H a) by (left; reflexivity).
  f_equal. apply IH. intros. apply H. right. assumption.
Qed.
Lemma filter_none {A} (f : A -> bool) l : (forall a, In a l -> f a = false) -> filter f l = [].
Proof.
  induction l as [|a l IH]; intros H; [reflexivity|]. cbn [filter]. rewrite (H a) by (left; reflexivity).
  apply IH. intros. apply H. right. assumption.
Qed.
Lemma idxs_filter x n : n <> 0 -> idxs x n = Some (filter (selp x n) (seq 0 n)).
Proof.
  intros H. unfold idxs. destruct x; unfold selp.
  - destruct (Nat.eqb_spec n 0); [lia|]. rewrite filter_seq_one by lia. reflexivity.
  - destruct (Nat.eqb_spec n 0); [lia|]. rewrite filter_seq_one by lia. reflexivity.
  - rewrite filter_all by reflexivity. reflexivity.
  - f_equal. destruct n as [|[|n]]; [lia|reflexivity|]. change (seq 0 (S (S n))) with (0 :: seq 1 (S n)).
    replace (S (S n) - 2) with n by lia. replace (S (S n) - 1) with (S n) by lia. cbn [filter Nat.leb andb]. rewrite seq_S. rewrite filter_app. cbn [filter].
    replace (1 + n <? S n) with false by (symmetry; apply Nat.ltb_ge; lia). rewrite andb_false_r, app_nil_r.
    symmetry. apply filter_all. intros a Ha. apply in_seq in Ha. apply andb_true_intro. split; [destruct a; [lia|reflexivity]|].
    apply Nat.ltb_lt. lia.
Qed.
Fixpoint selb (ss : list sel) (s i : list nat) : bool :=
  match ss, s, i with
  | [], [], [] => true
  | x :: ss', n :: s', k :: i' => selp x n k && selb ss' s' i'
  | _, _, _ => false
  end.
Lemma filter_flat_map {A B} (f : A -> list B) P l : filter P (flat_map f l) = flat_map (fun a => filter P (f a)) l.
Proof. induction l; [reflexivity|]. cbn [flat_map]. rewrite filter_app, IHl. reflexivity. Qed.
Lemma filter_map {A B} (f : A -> B) P l : filter P (map f l) = map f (filter (fun a => P (f a)) l).
Proof. induction l; [reflexivity|]. cbn [map filter]. destruct (P (f a)); cbn [map]; rewrite IHl; reflexivity. Qed.
Lemma flat_map_nil {A B} (f : A -> list B) l : (forall a, In a l -> f a = []) -> flat_map f l = [].
Proof.
  induction l; intros H; [reflexivity|]. cbn [flat_map]. rewrite H by (left; reflexivity). apply IHl.
  intros. apply H. right. assumption.
Qed.
Lemma flat_map_filter {A B} (f : A -> list B) (P : A -> bool) l :
  flat_map (fun a => if P a then f a else []) l = flat_map f (filter P l).
Proof. induction l; [reflexivity|]. cbn [flat_map filter]. destruct (P a); cbn [flat_map]; rewrite IHl; reflexivity. Qed.
Lemma idxss_grid ss s : length ss = length s -> Forall (fun n => n <> 0) s ->
  exists ls, idxss ss s = Some ls /\ prod_idx ls = filter (selb ss s) (grid s).
Proof.
  revert s. induction ss as [|x ss IH]; intros [|n s] L F; try discriminate.
  - exists []. split; reflexivity.
  - inversion F as [|? ? Hn F']; subst. destruct (IH s) as (ls & E & H); [cbn in L; lia|assumption|].
    exists (filter (selp x n) (seq 0 n) :: ls). cbn [idxss]. rewrite idxs_filter by assumption. rewrite E.
    split; [reflexivity|]. cbn [prod_idx grid]. rewrite H, filter_flat_map, <- flat_map_filter.
    rewrite !flat_map_concat_map. f_equal. apply map_ext. intros r. rewrite filter_map. cbn [selb].
    destruct (selb ss s r) eqn:B.
    + f_equal. apply filter_ext. intros k. symmetry; apply andb_true_r.
    + rewrite filter_none; [reflexivity|]. intros k _. apply andb_false_r.
Qed.
Lemma sizes_pos p t : Forall (fun n => 1 <= n) p -> length t = length p -> Forall (fun n => n <> 0) (sizes p t).
Proof.
  revert t. induction p as [|n p IH]; intros [|b t] F L; try discriminate; cbn [sizes]; constructor; inversion F; subst.
  - unfold size. destruct b; lia.
  - apply IH; auto.
Qed.
(** a view of the local numbering lists the numbers of the cells it selects, in their order *)
Lemma ravel_cells p ts c a t ss P : types_ok p ts -> Forall (fun n => 1 <= n) p -> length ss = length p ->
  nth_error (arrs_from 0 (map (sizes p) ts)) c = Some a -> nth_error ts c = Some t ->
  (forall i, inb (sizes p t) i = true -> P (combine t i) = selb ss (sizes p t) i) ->
  ravel a ss = Some (map (pos (cells p ts)) (filter P (cells_t p t))).
Proof.
  intros T F Ls Ha Ht HP. assert (Lt : length t = length p) by (apply T; eapply nth_error_In; eassumption).
  assert (Sa : shp a = sizes p t).
  { apply arrs_shape in Ha. rewrite nth_error_map, Ht in Ha. injection Ha as <-. reflexivity. }
  unfold ravel. rewrite Sa.
  destruct (idxss_grid ss (sizes p t)) as (ls & -> & El); [rewrite length_sizes; lia|apply sizes_pos; assumption|].
  rewrite El. rewrite (all_some_map _ (fun i => pos (cells p ts) (combine t i))).
  - f_equal. unfold cells_t. rewrite filter_map, map_map. f_equal. apply filter_ext_in. intros i Hi. apply in_grid in Hi.
    symmetry. apply HP. assumption.
  - intros i Hi. apply filter_In in Hi. destruct Hi as [Hi _]. apply in_grid in Hi.
    assert (Li := inb_length _ _ Hi). rewrite length_sizes in Li by assumption.
    eapply get_pos; try eassumption. split; [apply map_fst_combine; lia|]. apply inb_sizes; auto.
Qed.
Lemma map_findex_grid s : map (findex s) (grid s) = seq 0 (prodl s).
Proof.
  apply list_ext_nth_error. intros k. rewrite nth_error_map. destruct (nth_error (grid s) k) as [i|] eqn:E; cbn [option_map].
  - assert (Hk : k < prodl s) by (rewrite <- length_grid; apply nth_error_Some; congruence).
    rewrite (nth_error_nth' _ 0) by (rewrite seq_length; lia). rewrite seq_nth by lia. f_equal. cbn [Nat.add].
    assert (Hi := nth_error_In _ _ E). apply in_grid in Hi.
    eapply NoDup_nth_inj; [apply NoDup_grid| |exact E]. apply grid_nth. assumption.
  - symmetry. apply nth_error_None. rewrite seq_length, <- length_grid. apply nth_error_None. assumption.
Qed.
Lemma ravel_all off s : ravel (mkArr s (fun i => off + findex s i)) (map (fun _ => All) s) = Some (seq off (prodl s)).
Proof.
  unfold ravel. cbn [shp].
  assert (E : idxss (map (fun _ => All) s) s = Some (map (seq 0) s)).
  { induction s as [|n s IH]; [reflexivity|]. cbn [map idxss idxs]. rewrite IH. reflexivity. }
  rewrite E. change (prod_idx (map (seq 0) s)) with (all_idx s). rewrite grid_all_idx.
  rewrite (all_some_map _ (fun i => off + findex s i)).
  - rewrite <- (map_map (findex s) (fun x => off + x)), map_findex_grid. f_equal.
    apply list_ext_nth_error. intros i. rewrite nth_error_map_seq.
    destruct (Nat.ltb_spec i (prodl s)).
    + rewrite (nth_error_nth' _ 0) by (rewrite seq_length; lia). rewrite seq_nth by lia. f_equal.
    + symmetry. apply nth_error_None. rewrite seq_length. lia.
  - intros i Hi. apply in_grid in Hi. unfold get. cbn [shp at_]. rewrite Hi. reflexivity.
Qed.

(** * sides *)
Lemma side_sel_length d s : length (side_sel d s) = d.
Proof. unfold side_sel. rewrite map_length, seq_length. reflexivity. Qed.
(** the types with a node in the axis of the side *)
Definition touches (s : side) (t : ctype) : bool := match nth_error t (fst s) with Some b => negb b | None => false end.
Lemma on_side_interval p s t i : length t = length p -> length i = length p -> touches s t = false ->
  on_side p s (combine t i) = false.
Proof.
  intros Lt Li. unfold touches, on_side. destruct (nth_error t (fst s)) as [b|] eqn:E.
  - destruct b; [|discriminate]. intros _. rewrite nth_error_combine, E.
    destruct (nth_error i (fst s)); [|reflexivity]. destruct (nth_error p (fst s)); reflexivity.
  - intros _. rewrite nth_error_combine, E. reflexivity.
Qed.
Ltac boolean := repeat match goal with
  | |- context [?a =? ?b] => destruct (Nat.eqb_spec a b); try (exfalso; lia)
  | |- context [?a <? ?b] => destruct (Nat.ltb_spec a b); try (exfalso; lia)
  | |- context [?a <=? ?b] => destruct (Nat.leb_spec a b); try (exfalso; lia)
  end; try reflexivity.
(** the index list of a side selects the cells on that side *)
Lemma side_sel_selb p s t i : length t = length p -> touches s t = true -> inb (sizes p t) i = true ->
  on_side p s (combine t i) = selb (side_sel (length p) s) (sizes p t) i.
Proof.
  destruct s as [ax e]. unfold touches, on_side, side_sel. cbn [fst snd].
  assert (G : forall k p t i, length t = length p -> inb (sizes p t) i = true ->
    match nth_error t ax with Some b => negb b | None => false end = true ->
    match nth_error (combine t i) ax, nth_error p ax with
    | Some f, Some n => factor_eqb f (false, if e then n else 0) | _, _ => false end =
    selb (map (fun x => if x =? k + ax then (if e then Lst else Fst) else All) (seq k (length p))) (sizes p t) i).
  { clear. assert (A : forall m k p t i, length t = length p -> inb (sizes p t) i = true -> m < k ->
      selb (map (fun x => if x =? m then (if e then Lst else Fst) else All) (seq k (length p))) (sizes p t) i = true).
    { intros m k p. revert k. induction p as [|n p IH]; intros k [|b t] [|x i] Lt Hi Hm; try discriminate; [reflexivity|].
      cbn [length seq map sizes selb]. replace (k =? m) with false by (symmetry; apply Nat.eqb_neq; lia). cbn [selp andb].
      cbn [sizes inb] in Hi. apply andb_true_iff in Hi. destruct Hi as [_ Hi].
      apply IH; [cbn in Lt; lia|assumption|lia]. }
    revert A. induction ax as [|ax IH]; intros A k [|n p] [|b t] [|x i] Lt Hi Ht; try discriminate.
    - cbn [nth_error combine]. cbn [nth_error] in Ht. destruct b; [discriminate|].
      cbn [length seq map sizes selb]. rewrite Nat.add_0_r, Nat.eqb_refl.
      cbn [sizes inb] in Hi. apply andb_true_iff in Hi. destruct Hi as [Hx Hi].
      rewrite (A k (S k)) by (try lia; try assumption; cbn in Lt; lia). rewrite andb_true_r.
      unfold factor_eqb, size. cbn [fst snd Bool.eqb andb]. destruct e; cbn [selp Nat.sub]; rewrite ?Nat.sub_0_r; reflexivity.
    - cbn [nth_error combine]. cbn [nth_error] in Ht. cbn [length seq map sizes selb].
      replace (k =? k + S ax) with false by (symmetry; apply Nat.eqb_neq; lia). cbn [selp andb].
      cbn [sizes inb] in Hi. apply andb_true_iff in Hi. destruct Hi as [_ Hi].
      rewrite <- (Nat.add_succ_comm k ax). apply IH; auto. }
  intros Lt Ht Hi. rewrite (G 0) by assumption. reflexivity.
Qed.
(** numbers on a side *)
Lemma ravel_side p ts c a t s : types_ok p ts -> Forall (fun n => 1 <= n) p ->
  nth_error (arrs_from 0 (map (sizes p) ts)) c = Some a -> nth_error ts c = Some t -> touches s t = true ->
  ravel a (side_sel (length (shp a)) s) = Some (map (pos (cells p ts)) (filter (on_side p s) (cells_t p t))).
Proof.
  intros T F Ha Ht Htc. assert (Lt : length t = length p) by (apply T; eapply nth_error_In; eassumption).
  assert (Sa : shp a = sizes p t).
  { apply arrs_shape in Ha. rewrite nth_error_map, Ht in Ha. injection Ha as <-. reflexivity. }
  rewrite Sa, length_sizes by assumption.
  eapply ravel_cells; try eassumption; [apply side_sel_length|]. intros i Hi. apply side_sel_selb; assumption.
Qed.
Lemma filter_side_none p s t : length t = length p -> touches s t = false -> filter (on_side p s) (cells_t p t) = [].
Proof.
  intros Lt H. apply filter_none. intros c Hc. apply in_cells_t in Hc; [|assumption]. destruct Hc as [E F].
  rewrite <- (combine_map_fst_snd c), E. apply on_side_interval; auto. rewrite map_length. symmetry. apply (F2_length _ _ _ F).
Qed.
Lemma filter_side_cells p s ts : (forall t, In t ts -> length t = length p) ->
  filter (on_side p s) (cells p ts) = flat_map (fun t => filter (on_side p s) (cells_t p t)) (filter (touches s) ts).
Proof.
  intros H. unfold cells. rewrite filter_flat_map, <- flat_map_filter. rewrite !flat_map_concat_map. f_equal.
  apply map_ext_in. intros t Ht. destruct (touches s t) eqn:E; [reflexivity|]. apply filter_side_none; auto.
Qed.
(** how many *)
Lemma length_prod_idx ls : length (prod_idx ls) = prodl (map (@length nat) ls).
Proof.
  induction ls as [|l ls IH]; [reflexivity|]. cbn [prod_idx map]. rewrite (length_flat_map_const _ _ (length l)).
  - rewrite IH. unfold prodl. cbn [fold_right]. apply Nat.mul_comm.
  - intros. apply map_length.
Qed.
Lemma length_filter_cells_t p t ss P ls : length t = length p -> Forall (fun n => 1 <= n) p -> length ss = length p ->
  (forall i, inb (sizes p t) i = true -> P (combine t i) = selb ss (sizes p t) i) -> idxss ss (sizes p t) = Some ls ->
  length (filter P (cells_t p t)) = prodl (map (@length nat) ls).
Proof.
  intros Lt F Ls HP E. destruct (idxss_grid ss (sizes p t)) as (ls' & E' & El); [rewrite length_sizes; lia|apply sizes_pos; assumption|].
  rewrite E in E'. injection E' as <-. rewrite <- length_prod_idx, El. unfold cells_t. rewrite filter_map, map_length.
  f_equal. apply filter_ext_in. intros i Hi. apply in_grid in Hi. apply HP. assumption.
Qed.
Lemma length_side p s t ls : length t = length p -> Forall (fun n => 1 <= n) p -> touches s t = true ->
  idxss (side_sel (length p) s) (sizes p t) = Some ls ->
  length (filter (on_side p s) (cells_t p t)) = prodl (map (@length nat) ls).
Proof.
  intros Lt F Ht E. eapply length_filter_cells_t; try eassumption; [apply side_sel_length|].
  intros i Hi. apply side_sel_selb; assumption.
Qed.
