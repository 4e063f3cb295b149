From Coq Require Import List Arith ZArith Lia Bool.
From Verif Require Import Prelude PreludeProofs SpaceModel SpaceSpec.
Import ListNotations.

(** * options *)
Lemma all_some_map {A B} (f : A -> option B) (g : A -> B) l :
  (forall a, In a l -> f a = Some (g a)) -> all_some (map f l) = Some (map g l).
Proof.
  induction l as [|a l IH]; intros H; [reflexivity|]. cbn [map all_some].
  rewrite (H a) by (left; reflexivity). rewrite IH by (intros; apply H; right; assumption). reflexivity.
Qed.
Lemma all_some_app {A} (l1 l2 : list (option A)) r1 r2 :
  all_some l1 = Some r1 -> all_some l2 = Some r2 -> all_some (l1 ++ l2) = Some (r1 ++ r2).
Proof.
  revert r1. induction l1 as [|x l1 IH]; intros r1 H1 H2.
  - injection H1 as <-. exact H2.
  - cbn [app all_some] in *. destruct x as [x|]; [|discriminate].
    destruct (all_some l1) as [r|] eqn:E; [|discriminate]. injection H1 as <-.
    rewrite (IH r eq_refl H2). reflexivity.
Qed.
Lemma all_some_flat_map {A B} (f : A -> list (option B)) (g : A -> list B) l :
  (forall a, In a l -> all_some (f a) = Some (g a)) -> all_some (flat_map f l) = Some (flat_map g l).
Proof.
  induction l as [|a l IH]; intros H; [reflexivity|]. cbn [flat_map].
  apply all_some_app; [apply H; left; reflexivity|apply IH; intros; apply H; right; assumption].
Qed.
Lemma all_some_Some {A} (l : list A) : all_some (map Some l) = Some l.
Proof. rewrite (all_some_map Some (fun x => x)); [rewrite map_id; reflexivity|reflexivity]. Qed.

(** * indices *)
Lemma grid_all_idx s : all_idx s = grid s.
Proof. unfold all_idx. induction s as [|n s IH]; [reflexivity|]. cbn [map prod_idx grid]. rewrite IH. reflexivity. Qed.
Lemma inb_length s i : inb s i = true -> length i = length s.
Proof.
  revert i. induction s as [|n s IH]; destruct i as [|x i]; cbn [inb]; intros H; try discriminate; [reflexivity|].
  apply andb_true_iff in H. destruct H as [_ H]. cbn [length]. rewrite (IH i H). reflexivity.
Qed.
Lemma in_prod_idx ls i : In i (prod_idx ls) <-> Forall2 (fun x l => In x l) i ls.
Proof.
  revert i. induction ls as [|l ls IH]; intros i; cbn [prod_idx].
  - split.
    + intros [<-|[]]. constructor.
    + intros H. inversion H. left. reflexivity.
  - rewrite in_flat_map. split.
    + intros (r & Hr & Hi). apply in_map_iff in Hi. destruct Hi as (x & <- & Hx). constructor; [assumption|].
      apply IH. assumption.
    + intros H. inversion H as [|x l' r ls' Hx Hr]; subst. exists r. split; [apply IH; assumption|].
      apply in_map_iff. exists x. auto.
Qed.
Lemma in_grid s i : In i (grid s) <-> inb s i = true.
Proof.
  rewrite <- grid_all_idx. unfold all_idx. rewrite in_prod_idx. revert i.
  induction s as [|n s IH]; intros [|x i]; cbn [map inb].
  - split; [reflexivity|constructor].
  - split; [intros H; inversion H|discriminate].
  - split; [intros H; inversion H|discriminate].
  - rewrite andb_true_iff, Nat.ltb_lt, <- IH. split.
    + intros H. inversion H as [|? ? ? ? Hx Hr]; subst. apply in_seq in Hx. split; [lia|assumption].
    + intros [Hx Hr]. constructor; [apply in_seq; lia|assumption].
Qed.
Lemma length_flat_map_const {A B} (f : A -> list B) l n :
  (forall a, In a l -> length (f a) = n) -> length (flat_map f l) = length l * n.
Proof.
  induction l as [|a l IH]; intros H; [reflexivity|]. cbn [flat_map length]. rewrite app_length, IH.
  - rewrite H by (left; reflexivity). reflexivity.
  - intros. apply H. right. assumption.
Qed.
Lemma length_grid s : length (grid s) = prodl s.
Proof.
  induction s as [|n s IH]; [reflexivity|]. cbn [grid]. rewrite (length_flat_map_const _ _ n).
  - rewrite IH. unfold prodl. cbn [fold_right]. apply Nat.mul_comm.
  - intros. rewrite map_length, seq_length. reflexivity.
Qed.
Lemma nth_flat_map_const {A B} (f : A -> list B) l n x y a :
  (forall b, In b l -> length (f b) = n) -> x < n -> nth_error l y = Some a ->
  nth_error (flat_map f l) (x + n * y) = nth_error (f a) x.
Proof.
  revert y. induction l as [|b l IH]; intros y H Hx Hy; [destruct y; discriminate|]. cbn [flat_map].
  destruct y as [|y].
  - cbn in Hy. injection Hy as ->. rewrite Nat.mul_0_r, Nat.add_0_r.
    rewrite nth_error_app1; [reflexivity|]. rewrite H by (left; reflexivity). assumption.
  - cbn [nth_error] in Hy. rewrite nth_error_app2; rewrite H by (left; reflexivity).
    + replace (x + n * S y - n) with (x + n * y) by lia. apply IH; auto. intros. apply H. right. assumption.
    + lia.
Qed.
Lemma grid_nth s i : inb s i = true -> nth_error (grid s) (findex s i) = Some i.
Proof.
  revert i. induction s as [|n s IH]; intros [|x i]; cbn [inb]; intros H; try discriminate; [reflexivity|].
  apply andb_true_iff in H. destruct H as [Hx Hr]. apply Nat.ltb_lt in Hx. cbn [grid findex].
  rewrite (nth_flat_map_const _ _ n x _ i).
  - rewrite nth_error_map. rewrite (nth_error_nth' _ 0) by (rewrite seq_length; lia). rewrite seq_nth by lia. reflexivity.
  - intros. rewrite map_length, seq_length. reflexivity.
  - assumption.
  - apply IH. assumption.
Qed.
Lemma findex_lt s i : inb s i = true -> findex s i < prodl s.
Proof. intros H. rewrite <- length_grid. apply nth_error_Some. rewrite grid_nth by assumption. discriminate. Qed.
Lemma NoDup_flat_map {A B} (f : A -> list B) l :
  NoDup l -> (forall a, In a l -> NoDup (f a)) ->
  (forall a a' b, In a l -> In a' l -> In b (f a) -> In b (f a') -> a = a') -> NoDup (flat_map f l).
Proof.
  induction l as [|a l IH]; intros N F D; [constructor|]. inversion N; subst. cbn [flat_map].
  assert (Hd : forall b, In b (f a) -> ~ In b (flat_map f l)).
  { intros b Hb Hc. apply in_flat_map in Hc. destruct Hc as (a' & Ha' & Hb').
    assert (a = a') by (apply (D a a' b); auto; [left; reflexivity|right; assumption]). subst. contradiction. }
  assert (N2 : NoDup (flat_map f l)).
  { apply IH; auto; intros; [apply F; right; assumption|apply (D a0 a' b); auto; right; assumption]. }
  assert (N1 : NoDup (f a)) by (apply F; left; reflexivity). clear - Hd N1 N2.
  induction (f a) as [|b m IHm]; [assumption|]. inversion N1; subst. cbn [app]. constructor.
  - intros Hc. apply in_app_iff in Hc. destruct Hc as [Hc|Hc]; [contradiction|]. apply (Hd b); [left; reflexivity|assumption].
  - apply IHm; auto. intros b' Hb'. apply Hd. right. assumption.
Qed.
Lemma NoDup_map_inj {A B} (f : A -> B) l :
  (forall a a', In a l -> In a' l -> f a = f a' -> a = a') -> NoDup l -> NoDup (map f l).
Proof.
  induction l as [|a l IH]; intros F N; [constructor|]. inversion N; subst. cbn [map]. constructor.
  - intros H. apply in_map_iff in H. destruct H as (a' & E & Ha'). assert (a = a').
    { apply F; auto; [left; reflexivity|right; assumption]. } subst. contradiction.
  - apply IH; auto. intros. apply F; auto; right; assumption.
Qed.
Lemma NoDup_prod_idx ls : (forall l, In l ls -> NoDup l) -> NoDup (prod_idx ls).
Proof.
  induction ls as [|l ls IH]; intros H; cbn [prod_idx]; [repeat constructor; intros []|].
  apply NoDup_flat_map.
  - apply IH. intros. apply H. right. assumption.
  - intros r _. apply NoDup_map_inj; [intros; congruence|apply H; left; reflexivity].
  - intros r r' b _ _ Hb Hb'. apply in_map_iff in Hb. apply in_map_iff in Hb'.
    destruct Hb as (x & <- & _). destruct Hb' as (x' & E & _). congruence.
Qed.
Lemma NoDup_grid s : NoDup (grid s).
Proof.
  rewrite <- grid_all_idx. unfold all_idx. apply NoDup_prod_idx. intros l H. apply in_map_iff in H.
  destruct H as (n & <- & _). apply seq_NoDup.
Qed.

(** * the cells *)
Lemma F2_length {A B} (P : A -> B -> Prop) l m : Forall2 P l m -> length l = length m.
Proof. induction 1; cbn; auto. Qed.
Lemma map_fst_combine {A B} (t : list A) (i : list B) : length i = length t -> map fst (combine t i) = t.
Proof. revert i. induction t as [|b t IH]; intros [|x i] H; try discriminate; [reflexivity|]. cbn. rewrite IH; auto. Qed.
Lemma map_snd_combine {A B} (t : list A) (i : list B) : length i = length t -> map snd (combine t i) = i.
Proof. revert i. induction t as [|b t IH]; intros [|x i] H; try discriminate; [reflexivity|]. cbn. rewrite IH; auto. Qed.
Lemma length_sizes p t : length t = length p -> length (sizes p t) = length p.
Proof. revert t. induction p as [|n p IH]; intros [|b t] H; try discriminate; [reflexivity|]. cbn. rewrite IH; auto. Qed.
Lemma inb_sizes p t i : length t = length p -> length i = length p ->
  (inb (sizes p t) i = true <-> Forall2 ok_factor p (combine t i)).
Proof.
  revert t i. induction p as [|n p IH]; intros [|b t] [|x i] Ht Hi; try discriminate; cbn [sizes inb combine].
  - split; [constructor|reflexivity].
  - rewrite andb_true_iff, Nat.ltb_lt. rewrite (IH t i) by (cbn in *; lia). split.
    + intros [H1 H2]. constructor; [|assumption]. unfold ok_factor, size in *. cbn [fst snd]. destruct b; lia.
    + intros H. inversion H as [|? ? ? ? H1 H2]; subst. split; [|assumption].
      unfold ok_factor, size in *. cbn [fst snd] in H1. destruct b; lia.
Qed.
Lemma combine_map_fst_snd {A B} (c : list (A * B)) : combine (map fst c) (map snd c) = c.
Proof. induction c as [|[a b] c IH]; [reflexivity|]. cbn. rewrite IH. reflexivity. Qed.
Lemma in_cells_t p t c : length t = length p -> (In c (cells_t p t) <-> is_cell p t c).
Proof.
  intros Ht. unfold cells_t. rewrite in_map_iff. split.
  - intros (i & <- & Hi). apply in_grid in Hi. assert (L := inb_length _ _ Hi). rewrite length_sizes in L by assumption.
    split; [apply map_fst_combine; lia|]. apply inb_sizes; auto.
  - intros [E F]. exists (map snd c). assert (L : length (map snd c) = length p).
    { rewrite map_length. symmetry. apply (F2_length _ _ _ F). }
    split; [rewrite <- E; apply combine_map_fst_snd|].
    apply in_grid. apply inb_sizes; auto. rewrite <- E, combine_map_fst_snd. assumption.
Qed.
Definition types_ok (p : list nat) (ts : list ctype) : Prop := NoDup ts /\ forall t, In t ts -> length t = length p.
Lemma in_cells p ts c : types_ok p ts -> (In c (cells p ts) <-> exists t, In t ts /\ is_cell p t c).
Proof.
  intros [_ L]. unfold cells. rewrite in_flat_map. split; intros (t & Ht & H); exists t; (split; [assumption|]).
  - apply in_cells_t; auto.
  - apply in_cells_t; auto.
Qed.
Lemma NoDup_cells p ts : types_ok p ts -> NoDup (cells p ts).
Proof.
  intros [N L]. unfold cells. apply NoDup_flat_map; [assumption| |].
  - intros t Ht. unfold cells_t. apply NoDup_map_inj; [|apply NoDup_grid]. intros i i' Hi Hi' E.
    apply in_grid in Hi. apply in_grid in Hi'. apply inb_length in Hi. apply inb_length in Hi'.
    rewrite length_sizes in Hi, Hi' by auto. specialize (L t Ht).
    rewrite <- (map_snd_combine t i), <- (map_snd_combine t i') by lia. rewrite E. reflexivity.
  - intros t t' c Ht Ht' H H'. apply in_cells_t in H; auto. apply in_cells_t in H'; auto.
    destruct H as [<- _]. destruct H' as [<- _]. reflexivity.
Qed.
Lemma length_cells p ts : length (cells p ts) = sum (map (fun t => prodl (sizes p t)) ts).
Proof.
  unfold cells. induction ts as [|t ts IH]; [reflexivity|]. cbn [flat_map map]. rewrite app_length, IH, sum_cons.
  unfold cells_t. rewrite map_length, length_grid. reflexivity.
Qed.

(** * local numbering *)
Fixpoint arrs_from (off : nat) (ss : list (list nat)) : list (arr nat) :=
  match ss with
  | [] => []
  | s :: ss' => mkArr s (fun i => off + findex s i) :: arrs_from (off + prodl s) ss'
  end.
Lemma number_from_ok off ss : number_from off (nbc ss) ss = Some (arrs_from off ss).
Proof.
  revert off. induction ss as [|s ss IH]; intros off; [reflexivity|]. unfold nbc in *. cbn [map number_from arrs_from].
  unfold arangeF. rewrite Nat.eqb_refl, IH. reflexivity.
Qed.
Lemma numbering_ok ss : numbering ss = Some (arrs_from 0 ss).
Proof. apply number_from_ok. Qed.
Lemma nb_ok p ts : nb (map (sizes p) ts) = length (cells p ts).
Proof. rewrite length_cells. unfold nb, nbc. rewrite map_map. reflexivity. Qed.
Lemma arrs_shape off ss c a : nth_error (arrs_from off ss) c = Some a -> nth_error ss c = Some (shp a).
Proof.
  revert off c. induction ss as [|s ss IH]; intros off [|c] H; try discriminate; cbn in *.
  - injection H as <-. reflexivity.
  - eapply IH. eassumption.
Qed.
Lemma arrs_ex off ss c s : nth_error ss c = Some s -> exists a, nth_error (arrs_from off ss) c = Some a /\ shp a = s.
Proof.
  revert off c. induction ss as [|x ss IH]; intros off [|c] H; try discriminate; cbn in *.
  - injection H as ->. eexists. split; reflexivity.
  - apply IH. assumption.
Qed.
Lemma arrs_cells_off p ts off c a t i n :
  nth_error (arrs_from off (map (sizes p) ts)) c = Some a -> nth_error ts c = Some t -> get a i = Some n ->
  off <= n /\ nth_error (cells p ts) (n - off) = Some (combine t i).
Proof.
  revert off c. induction ts as [|u ts IH]; intros off [|c] Ha Ht Hn; try discriminate;
    cbn [map arrs_from nth_error] in *.
  - injection Ha as <-. injection Ht as <-. unfold get in Hn. cbn [shp at_] in Hn.
    destruct (inb (sizes p u) i) eqn:B; [|discriminate]. injection Hn as <-. split; [lia|].
    replace (off + findex (sizes p u) i - off) with (findex (sizes p u) i) by lia.
    unfold cells. cbn [flat_map]. rewrite nth_error_app1.
    + unfold cells_t. rewrite nth_error_map, grid_nth by assumption. reflexivity.
    + unfold cells_t. rewrite map_length, length_grid. apply findex_lt. assumption.
  - destruct (IH _ _ Ha Ht Hn) as [H1 H2]. split; [lia|].
    unfold cells. cbn [flat_map]. unfold cells_t at 1. rewrite nth_error_app2; rewrite map_length, length_grid; [|lia].
    rewrite <- H2. f_equal. lia.
Qed.
Lemma arrs_cells p ts c a t i n :
  nth_error (arrs_from 0 (map (sizes p) ts)) c = Some a -> nth_error ts c = Some t -> get a i = Some n ->
  nth_error (cells p ts) n = Some (combine t i).
Proof. intros Ha Ht Hn. destruct (arrs_cells_off p ts 0 c a t i n Ha Ht Hn) as [_ H]. rewrite Nat.sub_0_r in H. assumption. Qed.
Lemma NoDup_nth_inj {A} (l : list A) i j x : NoDup l -> nth_error l i = Some x -> nth_error l j = Some x -> i = j.
Proof.
  intros N Hi Hj. rewrite NoDup_nth_error in N. apply N; [|congruence]. apply nth_error_Some. congruence.
Qed.
(** the local numbering arrays number the cells *)
Lemma numbering_cells p ts c a t i n : types_ok p ts ->
  nth_error (arrs_from 0 (map (sizes p) ts)) c = Some a -> nth_error ts c = Some t ->
  (get a i = Some n <-> length i = length p /\ nth_error (cells p ts) n = Some (combine t i)).
Proof.
  intros T Ha Ht. assert (Lt : length t = length p) by (apply T; eapply nth_error_In; eassumption).
  assert (Sa : shp a = sizes p t).
  { apply arrs_shape in Ha. rewrite nth_error_map, Ht in Ha. injection Ha as <-. reflexivity. }
  split.
  - intros G. split; [|eapply arrs_cells; eassumption]. unfold get in G. rewrite Sa in G.
    destruct (inb (sizes p t) i) eqn:B; [|discriminate]. apply inb_length in B. rewrite length_sizes in B; auto.
  - intros [Li H]. assert (Hc : is_cell p t (combine t i)).
    { assert (Hin : In (combine t i) (cells p ts)) by (eapply nth_error_In; eassumption).
      apply in_cells in Hin; auto. destruct Hin as (t' & Ht' & E & F). split; [|assumption].
      apply map_fst_combine. lia. }
    assert (B : inb (sizes p t) i = true) by (apply inb_sizes; auto; apply Hc).
    assert (G : get a i = Some (at_ a i)) by (unfold get; rewrite Sa, B; reflexivity).
    rewrite G. f_equal. eapply NoDup_nth_inj; [apply NoDup_cells; eassumption| |exact H].
    eapply arrs_cells; eassumption.
Qed.
(** positions of cells *)
Lemma cell_eqb_eq a b : cell_eqb a b = true <-> a = b.
Proof.
  revert b. induction a as [|[x i] a IH]; intros [|[y j] b]; cbn [cell_eqb]; try (split; congruence).
  unfold factor_eqb. cbn [fst snd]. rewrite !andb_true_iff, IH, Bool.eqb_true_iff, Nat.eqb_eq. split.
  - intros [[-> ->] ->]. reflexivity.
  - intros H. injection H as -> -> ->. auto.
Qed.
Fixpoint pos (cs : list cell) (c : cell) : nat :=
  match cs with [] => 0 | x :: cs' => if cell_eqb x c then 0 else S (pos cs' c) end.
Lemma pos_nth cs c : In c cs -> nth_error cs (pos cs c) = Some c.
Proof.
  induction cs as [|x cs IH]; [intros []|]. intros H. cbn [pos]. destruct (cell_eqb x c) eqn:E.
  - apply cell_eqb_eq in E. subst. reflexivity.
  - cbn [nth_error]. apply IH. destruct H as [->|H]; [|assumption].
    assert (cell_eqb c c = true) by (apply cell_eqb_eq; reflexivity). congruence.
Qed.
Lemma pos_eq cs c n : NoDup cs -> nth_error cs n = Some c -> pos cs c = n.
Proof. intros N H. eapply NoDup_nth_inj; [exact N| |exact H]. apply pos_nth. eapply nth_error_In. eassumption. Qed.
Lemma pos_lt cs c : In c cs -> pos cs c < length cs.
Proof. intros H. apply nth_error_Some. rewrite pos_nth by assumption. discriminate. Qed.
Lemma get_pos p ts c a t i : types_ok p ts ->
  nth_error (arrs_from 0 (map (sizes p) ts)) c = Some a -> nth_error ts c = Some t ->
  is_cell p t (combine t i) -> length i = length p -> get a i = Some (pos (cells p ts) (combine t i)).
Proof.
  intros T Ha Ht Hc Li. eapply numbering_cells; try eassumption. split; [assumption|]. apply pos_nth.
  apply in_cells; [assumption|]. exists t. split; [eapply nth_error_In; eassumption|assumption].
Qed.
Lemma pos_inj cs a b : In a cs -> In b cs -> pos cs a = pos cs b -> a = b.
Proof. intros Ha Hb E. assert (A := pos_nth cs a Ha). rewrite E, pos_nth in A by assumption. congruence. Qed.

(** * matrices built by assignments *)
Fixpoint lastw (ws : list write) (r c : nat) (d : Z) : Z :=
  match ws with
  | [] => d
  | (r', c', v) :: ws' => lastw ws' r c (if (r =? r') && (c =? c') then v else d)
  end.
Lemma fold_setm ws m r c : fold_left setm ws m r c = lastw ws r c (m r c).
Proof. revert m. induction ws as [|[[r' c'] v] ws IH]; intros m; [reflexivity|]. cbn [fold_left lastw]. rewrite IH. reflexivity. Qed.
Lemma build_ok nr nc ws :
  (forall r c v, In (r, c, v) ws -> r < nr /\ c < nc) ->
  build nr nc ws = Some (fold_left setm ws (fun _ _ => 0%Z)).
Proof.
  intros H. unfold build. replace (forallb _ ws) with true; [reflexivity|]. symmetry. apply forallb_forall.
  intros [[r c] v] Hi. cbn [fst snd]. specialize (H _ _ _ Hi). apply andb_true_iff. rewrite !Nat.ltb_lt. assumption.
Qed.
Lemma lastw_app ws1 ws2 r c d : lastw (ws1 ++ ws2) r c d = lastw ws2 r c (lastw ws1 r c d).
Proof. revert d. induction ws1 as [|[[r' c'] v] ws IH]; intros d; [reflexivity|]. cbn [app lastw]. apply IH. Qed.
Lemma lastw_none ws r c d : (forall r' c' v, In (r', c', v) ws -> r' = r -> c' = c -> False) -> lastw ws r c d = d.
Proof.
  revert d. induction ws as [|[[r' c'] v] ws IH]; intros d H; [reflexivity|]. cbn [lastw].
  rewrite IH by (intros; eapply H; [right; eassumption|assumption..]).
  destruct (Nat.eqb_spec r r'), (Nat.eqb_spec c c'); cbn [andb]; try reflexivity. subst.
  exfalso. eapply H; [left; reflexivity|reflexivity..].
Qed.
(** rows filled group by group: only the group of that row counts *)
Lemma lastw_flat_map {A} (W : A -> list write) (R : A -> nat) l x c d :
  NoDup l -> In x l -> (forall a, In a l -> forall r' c' v, In (r', c', v) (W a) -> r' = R a) ->
  (forall a, In a l -> R a = R x -> a = x) ->
  lastw (flat_map W l) (R x) c d = lastw (W x) (R x) c d.
Proof.
  intros N I H J. revert d. induction l as [|a l IH]; intros d; [destruct I|]. inversion N; subst. cbn [flat_map]. rewrite lastw_app.
  destruct I as [->|I].
  - apply lastw_none. intros r' c' v Hi Er _. apply in_flat_map in Hi. destruct Hi as (b & Hb & Hw).
    assert (r' = R b) by (eapply H; [right; eassumption|eassumption]).
    assert (b = x) by (apply J; [right; assumption|congruence]). subst. contradiction.
  - rewrite IH; auto.
    + f_equal. apply lastw_none. intros r' c' v Hi Er _.
      assert (r' = R a) by (eapply H; [left; reflexivity|eassumption]).
      assert (a = x) by (apply J; [left; reflexivity|congruence]). subst. contradiction.
    + intros b Hb. apply H. right. assumption.
    + intros b Hb. apply J. right. assumption.
Qed.
(** last value given to a cell *)
Fixpoint lastc (l : list (cell * Z)) (c : cell) (d : Z) : Z :=
  match l with
  | [] => d
  | (c', v) :: l' => lastc l' c (if cell_eqb c' c then v else d)
  end.
Lemma lastw_lastc cs r (l : list (cell * Z)) c d : (forall x v, In (x, v) l -> In x cs) -> In c cs ->
  lastw (map (fun xv => (r, pos cs (fst xv), snd xv)) l) r (pos cs c) d = lastc l c d.
Proof.
  revert d. induction l as [|[x v] l IH]; intros d H Hc; [reflexivity|]. cbn [map lastw lastc fst snd].
  rewrite IH by (auto; intros; eapply H; right; eassumption). f_equal.
  rewrite Nat.eqb_refl. cbn [andb].
  assert (Hx : In x cs) by (eapply H; left; reflexivity).
  destruct (Nat.eqb_spec (pos cs c) (pos cs x)) as [E|E].
  - apply pos_inj in E; auto. subst. assert (cell_eqb x x = true) as -> by (apply cell_eqb_eq; reflexivity). reflexivity.
  - destruct (cell_eqb x c) eqn:E2; [|reflexivity]. apply cell_eqb_eq in E2. subst. congruence.
Qed.

(** * incidence matrices *)
(** the cells a row of the table refers to *)
Definition row_cells (ss : list ctype) (tl : list line) (i : list nat) : list (cell * Z) :=
  flat_map (fun l => match nth_error ss (fst (fst l)) with
                     | Some t => [(combine t (bump (snd (fst l)) i), snd l)]
                     | None => []
                     end) tl.
Lemma length_upd l i f : length (upd l i f) = length l.
Proof. revert i. induction l; intros [|i]; cbn; auto. Qed.
Lemma length_bump b i : length (bump b i) = length i.
Proof. destruct b; [apply length_upd|reflexivity]. Qed.
(** the table refers to existing cells only *)
Definition tab_ok (p : list nat) (ss ds : list ctype) (tab : list (list line)) : Prop :=
  length tab = length ds /\
  forall d t tl, nth_error ds d = Some t -> nth_error tab d = Some tl ->
  forall c b v, In (c, b, v) tl -> exists u, nth_error ss c = Some u /\
  forall i, is_cell p t (combine t i) -> length i = length p -> is_cell p u (combine u (bump b i)).
Lemma nth_error_combine {A B} (l : list A) (m : list B) n :
  nth_error (combine l m) n = match nth_error l n, nth_error m n with Some a, Some b => Some (a, b) | _, _ => None end.
Proof.
  revert m n. induction l as [|a l IH]; intros [|b m] [|n]; try reflexivity; cbn.
  - destruct (nth_error l n); reflexivity.
  - apply IH.
Qed.
Lemma combine_seq_nth {A} (l : list A) : forall x, In x (combine (seq 0 (length l)) l) -> nth_error l (fst x) = Some (snd x).
Proof.
  intros [n a] H. apply In_nth_error in H. destruct H as (k & H). rewrite nth_error_combine in H.
  destruct (nth_error (seq 0 (length l)) k) as [m|] eqn:E1; [|discriminate].
  destruct (nth_error l k) as [b|] eqn:E2; [|discriminate]. injection H as -> ->. cbn [fst snd].
  assert (Hk : k < length l) by (apply nth_error_Some; congruence).
  rewrite (nth_error_nth' _ 0) in E1 by (rewrite seq_length; assumption). rewrite seq_nth in E1 by assumption.
  injection E1 as <-. assumption.
Qed.

Lemma NoDup_combine_l {A B} (l : list A) (m : list B) : NoDup l -> NoDup (combine l m).
Proof.
  revert m. induction l as [|a l IH]; intros [|b m] N; try constructor; inversion N; subst.
  - intros H. apply in_combine_l in H. contradiction.
  - apply IH. assumption.
Qed.

Section Incidence.
  Variables (p : list nat) (ss ds : list ctype) (tab : list (list line)).
  Hypothesis Ts : types_ok p ss.
  Hypothesis Td : types_ok p ds.
  Hypothesis Tab : tab_ok p ss ds tab.
  Let sn := arrs_from 0 (map (sizes p) ss).
  Let dn := arrs_from 0 (map (sizes p) ds).
  Let rows := flat_map (fun tt => map (fun i => (fst tt, snd tt, i)) (grid (sizes p (fst tt)))) (combine ds tab).
  Let W (x : ctype * list line * list nat) : list write :=
    let '(t, tl, i) := x in
    map (fun cv => (pos (cells p ds) (combine t i), pos (cells p ss) (fst cv), snd cv)) (row_cells ss tl i).

  Lemma writes_eq :
    all_some (flat_map (fun dt => flat_map (fun i => map (line_write sn (fst dt) i) (snd dt))
                                           (all_idx (shp (fst dt)))) (combine dn tab))
    = Some (flat_map W rows).
  Proof.
    unfold rows. rewrite flat_map_concat_map. rewrite (flat_map_concat_map W).
    assert (G : forall off c tl' t a, nth_error dn c = Some a -> nth_error ds c = Some t ->
        nth_error tab c = Some tl' -> off = 0 ->
        all_some (flat_map (fun i => map (line_write sn a i) tl') (all_idx (shp a))) =
        Some (flat_map W (map (fun i => (t, tl', i)) (grid (sizes p t))))).
    { intros off c tl' t a Ha Ht Htl _. assert (Lt : length t = length p) by (apply Td; eapply nth_error_In; eassumption).
      assert (Sa : shp a = sizes p t).
      { apply arrs_shape in Ha. rewrite nth_error_map, Ht in Ha. injection Ha as <-. reflexivity. }
      rewrite Sa, grid_all_idx.
      rewrite (flat_map_concat_map W), map_map, <- flat_map_concat_map.
      apply all_some_flat_map. intros i Hi. apply in_grid in Hi. assert (Li := inb_length _ _ Hi).
      rewrite length_sizes in Li by assumption. cbn [W].
      assert (Hc : is_cell p t (combine t i)).
      { split; [apply map_fst_combine; lia|]. apply inb_sizes; auto. }
      assert (Hd : get a i = Some (pos (cells p ds) (combine t i))) by (eapply get_pos; eassumption).
      destruct Tab as [_ Tab']. specialize (Tab' c t tl' Ht Htl). clear Htl.
      unfold row_cells. induction tl' as [|l tl' IH]; [reflexivity|].
      cbn [map flat_map]. rewrite map_app.
      change (line_write sn a i l :: map (line_write sn a i) tl') with ([line_write sn a i l] ++ map (line_write sn a i) tl').
      apply all_some_app; [|apply IH; intros k' b' v' Hk'; apply (Tab' k' b' v'); right; assumption].
      destruct l as [[k b] v]. destruct (Tab' k b v (or_introl eq_refl)) as (u & Hu & Hb). cbn [fst snd]. rewrite Hu.
      cbn [line_write map all_some fst snd]. rewrite Hd.
      destruct (arrs_ex 0 (map (sizes p) ss) k (sizes p u)) as (s & Hs & _).
      { rewrite nth_error_map, Hu. reflexivity. }
      fold sn in Hs. rewrite Hs. specialize (Hb i Hc Li).
      rewrite (get_pos p ss k s u (bump b i) Ts Hs Hu Hb) by (rewrite length_bump; assumption). reflexivity. }
    destruct Tab as [Lt _]. unfold dn in *.
    assert (Hn : forall c a, nth_error (combine (arrs_from 0 (map (sizes p) ds)) tab) c = Some a ->
                 exists t, nth_error (combine ds tab) c = Some (t, snd a) /\
                 all_some (flat_map (fun i => map (line_write sn (fst a) i) (snd a)) (all_idx (shp (fst a)))) =
                 Some (flat_map W (map (fun i => (t, snd a, i)) (grid (sizes p t))))).
    { intros c [a tl] H. rewrite nth_error_combine in H.
      destruct (nth_error (arrs_from 0 (map (sizes p) ds)) c) as [a'|] eqn:Ea; [|discriminate].
      destruct (nth_error tab c) as [tl'|] eqn:Etl; [|discriminate]. injection H as -> ->.
      destruct (nth_error ds c) as [t|] eqn:Et.
      - exists t. rewrite nth_error_combine, Et, Etl. split; [reflexivity|]. cbn [fst snd]. eapply G; eauto.
      - exfalso. apply nth_error_None in Et. assert (c < length tab) by (apply nth_error_Some; congruence). lia. }
    assert (Lc : length (combine (arrs_from 0 (map (sizes p) ds)) tab) = length (combine ds tab)).
    { assert (Q : forall off l, length (arrs_from off l) = length l).
      { intros off l. revert off. induction l; intros off; cbn; auto. }
      rewrite !combine_length, Q, map_length. reflexivity. }
    rewrite <- !flat_map_concat_map.
    revert Hn Lc. generalize (combine (arrs_from 0 (map (sizes p) ds)) tab). generalize (combine ds tab).
    intros l2 l1. revert l2. induction l1 as [|a l1 IH]; intros [|b l2] Hn Lc; try discriminate; [reflexivity|].
    cbn [flat_map map]. rewrite flat_map_app. apply all_some_app.
    - destruct (Hn 0 a eq_refl) as (t & Hb & E). cbn in Hb. injection Hb as ->. cbn [fst snd]. exact E.
    - apply IH; [|cbn in Lc; lia]. intros c x Hx. exact (Hn (S c) x Hx).
  Qed.

  Lemma rows_in x : In x rows -> exists d, nth_error ds d = Some (fst (fst x)) /\ nth_error tab d = Some (snd (fst x))
    /\ inb (sizes p (fst (fst x))) (snd x) = true.
  Proof.
    unfold rows. rewrite in_flat_map. intros ([t tl] & Ht & Hi). apply in_map_iff in Hi. cbn [fst snd] in Hi.
    destruct Hi as (i & <- & Hi). apply in_grid in Hi. cbn [fst snd]. apply In_nth_error in Ht. destruct Ht as (d & Hd).
    rewrite nth_error_combine in Hd. exists d.
    destruct (nth_error ds d); [|discriminate]. destruct (nth_error tab d); [|discriminate]. injection Hd as -> ->. auto.
  Qed.
  Lemma row_cells_in d t tl i : nth_error ds d = Some t -> nth_error tab d = Some tl ->
    is_cell p t (combine t i) -> length i = length p -> forall c v, In (c, v) (row_cells ss tl i) -> In c (cells p ss).
  Proof.
    intros Hd Htl Hc Li c v H. unfold row_cells in H. apply in_flat_map in H. destruct H as ([[k b] w] & Hl & H).
    destruct Tab as [_ Tab']. destruct (Tab' _ _ _ Hd Htl _ _ _ Hl) as (u & Hu & Hb). cbn [fst snd] in H. rewrite Hu in H.
    destruct H as [E|[]]. injection E as <- <-. apply in_cells; [assumption|]. exists u.
    split; [eapply nth_error_In; eassumption|]. apply Hb; assumption.
  Qed.
  Lemma cell_of t i : In t ds -> inb (sizes p t) i = true ->
    is_cell p t (combine t i) /\ length i = length p /\ In (combine t i) (cells p ds).
  Proof.
    intros Ht Hi. assert (Lt : length t = length p) by (apply Td; assumption).
    assert (Li := inb_length _ _ Hi). rewrite length_sizes in Li by assumption.
    assert (Hc : is_cell p t (combine t i)) by (split; [apply map_fst_combine; lia|apply inb_sizes; auto]).
    split; [assumption|]. split; [assumption|]. apply in_cells; [assumption|]. exists t. auto.
  Qed.
  Definition row_of (x : ctype * list line * list nat) : cell := combine (fst (fst x)) (snd x).

  Lemma incidence_ok : exists E, incidence (map (sizes p) ss) (map (sizes p) ds) tab = Some E /\
    forall d t tl i, nth_error ds d = Some t -> nth_error tab d = Some tl -> inb (sizes p t) i = true ->
    forall c, In c (cells p ss) ->
    E (pos (cells p ds) (combine t i)) (pos (cells p ss) c) = lastc (row_cells ss tl i) c 0.
  Proof.
    unfold incidence. rewrite !numbering_ok. fold sn dn. rewrite writes_eq.
    rewrite build_ok.
    - eexists. split; [reflexivity|]. intros d t tl i Hd Htl Hi c Hc. rewrite fold_setm.
      destruct (cell_of t i) as (C1 & C2 & C3); [eapply nth_error_In; eassumption|assumption|].
      set (x := (t, tl, i)). change (combine t i) with (row_of x).
      rewrite (lastw_flat_map W (fun x => pos (cells p ds) (row_of x)) rows x).
      + unfold x, W, row_of. cbn [fst snd]. apply lastw_lastc; [|assumption]. eapply row_cells_in; eassumption.
      + (* NoDup rows *)
        unfold rows. apply NoDup_flat_map.
        * apply NoDup_combine_l. apply Td.
        * intros [a b] _. apply NoDup_map_inj; [|apply NoDup_grid]. intros; congruence.
        * intros [a b] [a' b'] y _ _ Hy Hy'. apply in_map_iff in Hy. apply in_map_iff in Hy'.
          destruct Hy as (? & <- & _). destruct Hy' as (? & E & _). cbn [fst snd] in E. congruence.
      + unfold rows. apply in_flat_map. exists (t, tl). split.
        * apply nth_error_In with d. rewrite nth_error_combine, Hd, Htl. reflexivity.
        * apply in_map_iff. exists i. split; [reflexivity|]. apply in_grid. assumption.
      + intros [[t' tl'] i'] _ r' c' v H. unfold W in H. apply in_map_iff in H. destruct H as (cv & E & _).
        unfold row_of. cbn [fst snd]. congruence.
      + intros y Hy E. destruct (rows_in _ Hy) as (d' & Hd' & Htl' & Hi'). destruct y as [[t' tl'] i']. cbn [fst snd] in *.
        destruct (cell_of t' i') as (C1' & C2' & C3'); [eapply nth_error_In; eassumption|assumption|].
        apply pos_inj in E; auto. unfold row_of, x in E. cbn [fst snd] in E.
        assert (t' = t).
        { destruct C1 as [<- _]. destruct C1' as [<- _]. rewrite E. reflexivity. } subst t'.
        assert (d' = d) by (eapply NoDup_nth_inj; [apply Td|eassumption|eassumption]). subst d'.
        assert (tl' = tl) by congruence. subst tl'. unfold x. f_equal.
        assert (Lt : length t = length p) by (apply Td; eapply nth_error_In; eassumption).
        rewrite <- (map_snd_combine t i), <- (map_snd_combine t i') by lia. rewrite E. reflexivity.
    - intros r c v H. apply in_flat_map in H. destruct H as (y & Hy & Hw).
      destruct (rows_in _ Hy) as (d' & Hd' & Htl' & Hi'). destruct y as [[t' tl'] i']. cbn [fst snd] in *.
      destruct (cell_of t' i') as (C1' & C2' & C3'); [eapply nth_error_In; eassumption|assumption|].
      unfold W in Hw. apply in_map_iff in Hw. destruct Hw as ([x w] & Ew & Hw). cbn [fst snd] in Ew. injection Ew as <- <- <-.
      rewrite !nb_ok. split; [apply pos_lt; assumption|]. apply pos_lt. eapply row_cells_in; eassumption.
  Qed.
End Incidence.
