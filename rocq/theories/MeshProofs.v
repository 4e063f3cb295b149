(** Element numbering. *)
From Coq Require Import List Arith Bool Lia Permutation.
From Verif Require Import Prelude PreludeProofs SpaceModel SpaceSpec SpaceProofs MeshModel MeshSpec.
Import ListNotations.

Lemma inb_F2 s i : inb s i = true <-> Forall2 lt i s.
Proof.
  revert i. induction s as [|n s IH]; intros [|x i]; cbn; split; intros H; try discriminate; try constructor; try (inversion H; fail).
  - apply andb_prop in H. apply Nat.ltb_lt. apply H.
  - apply andb_prop in H. apply IH. apply H.
  - inversion H; subst. apply andb_true_intro. split; [apply Nat.ltb_lt; assumption|]. apply IH. assumption.
Qed.
Lemma F2_le_refl i : Forall2 le i i. Proof. induction i; constructor; auto. Qed.
Lemma F2_le_antisym i j : Forall2 le i j -> Forall2 le j i -> i = j.
Proof. intros H. induction H; intros G; inversion G; subst; [reflexivity|]. f_equal; [lia|auto]. Qed.

(** lists of indices in which no entry is below an earlier one *)
Definition upward (L : list (list nat)) : Prop := ForallOrdPairs (fun a b => ~ Forall2 le b a) L.
Lemma FOP_app {A} (R : A -> A -> Prop) l m : ForallOrdPairs R l -> ForallOrdPairs R m -> (forall a b, In a l -> In b m -> R a b) ->
  ForallOrdPairs R (l ++ m).
Proof.
  induction l as [|x l IH]; intros Hl Hm H; cbn; [exact Hm|]. inversion Hl; subst. constructor.
  - apply Forall_forall. intros b Hb. apply in_app_or in Hb. destruct Hb as [Hb|Hb].
    + rewrite Forall_forall in *. auto.
    + apply H; [now left|exact Hb].
  - apply IH; auto. intros a b Ha Hb. apply H; [now right|exact Hb].
Qed.
Lemma FOP_flat_map {A B} (R : B -> B -> Prop) (S0 : A -> A -> Prop) (f : A -> list B) l : ForallOrdPairs S0 l ->
  (forall x, In x l -> ForallOrdPairs R (f x)) ->
  (forall x y a b, In x l -> In y l -> S0 x y -> In a (f x) -> In b (f y) -> R a b) -> ForallOrdPairs R (flat_map f l).
Proof.
  induction l as [|x l IH]; intros Hl H1 H2; cbn; [constructor|]. inversion Hl as [|? ? F1 F2']; subst. apply FOP_app.
  - apply H1. now left.
  - apply IH; [exact F2'| |].
    + intros y Hy. apply H1. now right.
    + intros y z a b Hy Hz HS Ha Hb. apply (H2 y z); auto; now right.
  - intros a b Ha Hb. apply in_flat_map in Hb. destruct Hb as (y & Hy & Hb). rewrite Forall_forall in F1.
    apply (H2 x y); auto; [now left|now right].
Qed.
Lemma FOP_map {A B} (R : B -> B -> Prop) (S0 : A -> A -> Prop) (f : A -> B) l : ForallOrdPairs S0 l ->
  (forall x y, S0 x y -> R (f x) (f y)) -> ForallOrdPairs R (map f l).
Proof.
  intros H G. induction H as [|x l F1 H IH]; cbn; constructor; [|exact IH]. rewrite Forall_forall in *. intros b Hb.
  apply in_map_iff in Hb. destruct Hb as (y & <- & Hy). auto.
Qed.
Lemma FOP_nth {A} (R : A -> A -> Prop) l a b x y : ForallOrdPairs R l -> nth_error l a = Some x -> nth_error l b = Some y -> a < b -> R x y.
Proof.
  intros H. revert a b. induction H as [|z l F1 H IH]; intros [|a] [|b] Ha Hb L; cbn in *; try discriminate; try lia.
  - injection Ha as <-. rewrite Forall_forall in F1. apply F1. eapply nth_error_In; eauto.
  - apply (IH a b); auto. lia.
Qed.
Lemma FOP_seq a n : ForallOrdPairs lt (seq a n).
Proof.
  revert a. induction n as [|n IH]; intros a; cbn; constructor; [|apply IH]. apply Forall_forall. intros x Hx. apply in_seq in Hx. lia.
Qed.
Lemma upward_NoDup L : upward L -> NoDup L.
Proof.
  intros H. induction H as [|x l F1 H IH]; constructor; [|exact IH]. intros G. rewrite Forall_forall in F1. exact (F1 x G (F2_le_refl x)).
Qed.
Lemma upward_prod ls : (forall l, In l ls -> ForallOrdPairs lt l) -> upward (prod_idx ls).
Proof.
  induction ls as [|l ls IH]; intros H; cbn [prod_idx]; [repeat constructor|].
  apply FOP_flat_map with (S0 := fun a b => ~ Forall2 le b a).
  - apply IH. intros m Hm. apply H. now right.
  - intros r _. apply FOP_map with (S0 := lt); [apply H; now left|]. intros x y L F. inversion F; subst. lia.
  - intros r r' a b _ _ HR Ha Hb F. apply in_map_iff in Ha, Hb. destruct Ha as (x & <- & _). destruct Hb as (y & <- & _).
    inversion F; subst. contradiction.
Qed.

(** an array holding start + position in such a list *)
Definition listed (s : list nat) (start : nat) (f : list nat -> nat) (L : list (list nat)) : Prop :=
  upward L /\ (forall i, In i L <-> Forall2 lt i s) /\ (forall k i, nth_error L k = Some i -> f i = start + k).
Lemma listed_ok s start f L : listed s start f L -> bijective s start (length L) f /\ increasing s f.
Proof.
  intros (U & C & P). split; [split; [|split]|].
  - intros i Hi. apply C in Hi. apply In_nth_error in Hi. destruct Hi as (k & Hk). rewrite (P _ _ Hk).
    assert (k < length L) by (apply nth_error_Some; congruence). lia.
  - intros k Hk. destruct (nth_error L (k - start)) as [i|] eqn:E; [|apply nth_error_None in E; lia]. exists i. split.
    + apply C. eapply nth_error_In; eauto.
    + rewrite (P _ _ E). lia.
  - intros i j Hi Hj E. apply C in Hi, Hj. apply In_nth_error in Hi, Hj. destruct Hi as (a & Ha), Hj as (b & Hb).
    rewrite (P _ _ Ha), (P _ _ Hb) in E. replace b with a in Hb by lia. congruence.
  - intros i j Hi Hj F N. apply C in Hi, Hj. apply In_nth_error in Hi, Hj. destruct Hi as (a & Ha), Hj as (b & Hb).
    rewrite (P _ _ Ha), (P _ _ Hb). destruct (Nat.lt_trichotomy a b) as [L1|[L1|L1]]; [lia| |].
    + subst. congruence.
    + exfalso. exact (FOP_nth _ _ _ _ _ _ U Hb Ha L1 F).
Qed.

(** order F and order C *)
Lemma grid_lt s i : In i (all_idx s) <-> Forall2 lt i s.
Proof. rewrite grid_all_idx, in_grid. apply inb_F2. Qed.
Lemma upward_grid s : upward (all_idx s).
Proof. apply upward_prod. intros l Hl. apply in_map_iff in Hl. destruct Hl as (n & <- & _). apply FOP_seq. Qed.
Lemma listed_F s start : listed s start (fun i => start + findex s i) (all_idx s).
Proof.
  split; [apply upward_grid|]. split; [apply grid_lt|]. intros k i H.
  assert (B : inb s i = true) by (apply inb_F2, grid_lt; eapply nth_error_In; eauto).
  f_equal. apply (NoDup_nth_inj (all_idx s) _ _ i); [apply upward_NoDup, upward_grid| |exact H]. rewrite grid_all_idx. apply grid_nth. exact B.
Qed.
Fixpoint gridC (s : list nat) : list (list nat) :=
  match s with [] => [[]] | n :: s' => flat_map (fun x => map (cons x) (gridC s')) (seq 0 n) end.
Lemma gridC_lt s i : In i (gridC s) <-> Forall2 lt i s.
Proof.
  revert i. induction s as [|n s IH]; intros i; cbn [gridC].
  - split; [intros [<-|[]]; constructor|]. intros H. inversion H. now left.
  - rewrite in_flat_map. split.
    + intros (x & Hx & H). apply in_map_iff in H. destruct H as (j & <- & Hj). apply in_seq in Hx. constructor; [lia|]. apply IH. exact Hj.
    + intros H. inversion H; subst. exists x. split; [apply in_seq; lia|]. apply in_map. apply IH. assumption.
Qed.
Lemma length_gridC s : length (gridC s) = prodl s.
Proof.
  induction s as [|n s IH]; [reflexivity|]. cbn [gridC]. rewrite (length_flat_map_const _ _ (prodl s)).
  - rewrite seq_length. reflexivity.
  - intros x _. rewrite map_length. exact IH.
Qed.
Lemma upward_gridC s : upward (gridC s).
Proof.
  induction s as [|n s IH]; cbn [gridC]; [repeat constructor|]. apply FOP_flat_map with (S0 := lt); [apply FOP_seq| |].
  - intros x _. apply FOP_map with (S0 := fun a b => ~ Forall2 le b a); [exact IH|]. intros a b H F. inversion F; subst. contradiction.
  - intros x y a b _ _ L Ha Hb F. apply in_map_iff in Ha, Hb. destruct Ha as (u & <- & _), Hb as (v & <- & _). inversion F; subst. lia.
Qed.
Lemma nth_gridC s i : Forall2 lt i s -> nth_error (gridC s) (cindex s i) = Some i.
Proof.
  intros H. induction H as [|x n i s L H IH]; [reflexivity|]. cbn [gridC cindex].
  replace (x * prodl s + cindex s i) with (cindex s i + prodl s * x) by lia.
  rewrite (nth_flat_map_const (fun x => map (cons x) (gridC s)) (seq 0 n) (prodl s) (cindex s i) x x).
  - rewrite nth_error_map, IH. reflexivity.
  - intros b _. rewrite map_length. apply length_gridC.
  - rewrite <- length_gridC. apply nth_error_Some. rewrite IH. discriminate.
  - rewrite (nth_error_nth' _ 0) by (rewrite seq_length; lia). rewrite seq_nth by lia. reflexivity.
Qed.
Lemma listed_C s start : listed s start (fun i => start + cindex s i) (gridC s).
Proof.
  split; [apply upward_gridC|]. split; [apply gridC_lt|]. intros k i H. f_equal.
  apply (NoDup_nth_inj (gridC s) _ _ i); [apply upward_NoDup, upward_gridC| |exact H]. apply nth_gridC, gridC_lt. eapply nth_error_In; eauto.
Qed.

(** * blocks *)
Lemma fold_set_other L vs E i : ~ In i L -> fold_left set_n (combine L vs) E i = E i.
Proof.
  revert vs E. induction L as [|x L IH]; intros [|v vs] E H; try reflexivity. cbn [combine fold_left]. rewrite IH by (intros G; apply H; now right).
  unfold set_n. cbn [fst snd]. destruct (list_eq_dec Nat.eq_dec i x) as [->|]; [|reflexivity]. exfalso. apply H. now left.
Qed.
Lemma fold_set_listed L N E k i : NoDup L -> nth_error L k = Some i -> fold_left set_n (combine L (seq N (length L))) E i = N + k.
Proof.
  revert N E k. induction L as [|x L IH]; intros N E k ND H; [destruct k; discriminate|]. inversion ND; subst. cbn [length seq combine fold_left].
  destruct k as [|k]; cbn [nth_error] in H.
  - injection H as ->. rewrite fold_set_other by assumption. unfold set_n. cbn [fst snd].
    destruct (list_eq_dec Nat.eq_dec i i); [lia|contradiction].
  - rewrite (IH (S N) _ k) by assumption. lia.
Qed.
Lemma length_prod_idx ls : length (prod_idx ls) = prodl (map (@length nat) ls).
Proof.
  induction ls as [|l ls IH]; [reflexivity|]. cbn [prod_idx map]. rewrite (length_flat_map_const _ _ (length l)).
  - rewrite IH. unfold prodl. cbn [fold_right]. lia.
  - intros. apply map_length.
Qed.
Lemma combine_app_ {A B} (l l' : list A) (m m' : list B) : length l = length m -> combine (l ++ l') (m ++ m') = combine l m ++ combine l' m'.
Proof. revert m. induction l as [|x l IH]; intros [|y m] H; try discriminate; [reflexivity|]. cbn. f_equal. apply IH. cbn in H. lia. Qed.
Lemma NoDup_F2_3 x y z xs ys zs : In [x; y; z] (prod_idx [xs; ys; zs]) <-> In x xs /\ In y ys /\ In z zs.
Proof.
  rewrite in_prod_idx. split.
  - intros H. inversion H as [|? ? ? ? H1 H2]; subst. inversion H2 as [|? ? ? ? H3 H4]; subst. inversion H4; subst. auto.
  - intros (H1 & H2 & H3). repeat constructor; assumption.
Qed.
Section Pylons.
  Context (A0 A1 A2 X Y : nat) (HX : 1 <= X <= A0) (HY : 1 <= Y <= A1).
  Definition wid (A X m : nat) : nat := if m =? A / X - 1 then X + A mod X else X.
  Definition rows (A X m : nat) : list nat := seq (m * X) (wid A X m).
  Definition bidx (nm : nat * nat) : list (list nat) := prod_idx [rows A0 X (snd nm); rows A1 Y (fst nm); seq 0 A2].
  Definition bsize (nm : nat * nat) : nat := wid A0 X (snd nm) * wid A1 Y (fst nm) * A2.
  Definition bls : list (nat * nat) := flat_map (fun n => map (pair n) (seq 0 (A0 / X))) (seq 0 (A1 / Y)).
  Lemma bidx_length nm : length (bidx nm) = bsize nm.
  Proof. clear HX HY. unfold bidx. rewrite length_prod_idx. cbn [map]. unfold rows. rewrite !seq_length. unfold prodl, bsize. cbn [fold_right]. lia. Qed.
  Lemma div_facts A Z : 1 <= Z <= A -> A = Z * (A / Z) + A mod Z /\ 1 <= A / Z /\ A mod Z < Z.
  Proof.
    clear HX HY. intros H. split; [apply Nat.div_mod_eq|]. split; [apply Nat.div_le_lower_bound; lia|]. apply Nat.mod_upper_bound. lia.
  Qed.
  Lemma slice_rows A Z m : 1 <= Z <= A -> m < A / Z ->
    (if m =? A / Z - 1 then slice A (m * Z) A else slice A (m * Z) ((m + 1) * Z)) = rows A Z m.
  Proof.
    intros H Hm. destruct (div_facts A Z H) as (E & L & R). unfold rows, wid, slice.
    destruct (m =? A / Z - 1) eqn:Em.
    - apply Nat.eqb_eq in Em. f_equal. subst m. rewrite Nat.min_id. nia.
    - apply Nat.eqb_neq in Em. f_equal. rewrite Nat.min_l by nia. nia.
  Qed.
  Lemma one_block_ok E N P nm : In nm bls ->
    one_block A0 A1 A2 X Y (Some (E, N, P)) nm =
    Some (fold_left set_n (combine (bidx nm) (seq N (length (bidx nm)))) E, N + length (bidx nm), P ++ [bsize nm]).
  Proof.
    intros H. apply in_flat_map in H. destruct H as (n & Hn & H). apply in_map_iff in H. destruct H as (m & <- & Hm).
    apply in_seq in Hn, Hm. unfold one_block. cbv zeta.
    rewrite (slice_rows A0 X m HX) by lia. rewrite (slice_rows A1 Y n HY) by lia.
    change (if m =? A0 / X - 1 then X + A0 mod X else X) with (wid A0 X m).
    change (if n =? A1 / Y - 1 then Y + A1 mod Y else Y) with (wid A1 Y n).
    unfold put_block. cbn [map].
    replace [length (rows A0 X m); length (rows A1 Y n); length (seq 0 A2)] with [wid A0 X m; wid A1 Y n; A2]
      by (unfold rows; rewrite (seq_length (wid A0 X m)), (seq_length (wid A1 Y n)), (seq_length A2); reflexivity).
    destruct (list_eq_dec Nat.eq_dec [wid A0 X m; wid A1 Y n; A2] [wid A0 X m; wid A1 Y n; A2]); [|contradiction].
    rewrite bidx_length. unfold bsize. cbn [fst snd]. unfold bidx. cbn [fst snd].
    replace (prodl [wid A0 X m; wid A1 Y n; A2]) with (wid A0 X m * wid A1 Y n * A2) by (unfold prodl; cbn [fold_right]; lia). reflexivity.
  Qed.
  Lemma blocks_ok bl E N P : incl bl bls ->
    fold_left (one_block A0 A1 A2 X Y) bl (Some (E, N, P)) =
    Some (fold_left set_n (combine (flat_map bidx bl) (seq N (length (flat_map bidx bl)))) E, N + length (flat_map bidx bl), P ++ map bsize bl).
  Proof.
    revert E N P. induction bl as [|b bl IH]; intros E N P H; cbn [fold_left flat_map map].
    - cbn. rewrite Nat.add_0_r, app_nil_r. reflexivity.
    - rewrite one_block_ok by (apply H; now left). rewrite IH by (intros x Hx; apply H; now right).
      rewrite app_length, seq_app, combine_app_ by (rewrite seq_length; reflexivity). rewrite fold_left_app, <- app_assoc. cbn [app].
      rewrite Nat.add_assoc. reflexivity.
  Qed.
  Lemma rows_cover A Z x : 1 <= Z <= A -> (x < A <-> exists m, m < A / Z /\ In x (rows A Z m)).
  Proof.
    intros H. destruct (div_facts A Z H) as (E & L & R). unfold rows, wid. split.
    - intros Hx. exists (Nat.min (x / Z) (A / Z - 1)). split; [lia|].
      assert (D := Nat.div_mod_eq x Z). assert (R' : x mod Z < Z) by (apply Nat.mod_upper_bound; lia).
      apply in_seq. destruct (Nat.le_gt_cases (x / Z) (A / Z - 1)) as [C|C].
      + rewrite Nat.min_l by exact C. destruct (x / Z =? A / Z - 1); nia.
      + rewrite Nat.min_r by lia. rewrite Nat.eqb_refl. nia.
    - intros (m & Hm & Hx). apply in_seq in Hx. destruct (m =? A / Z - 1) eqn:Em; [apply Nat.eqb_eq in Em; subst m; nia|].
      apply Nat.eqb_neq in Em. nia.
  Qed.
  Lemma rows_order A Z m m' x x' : 1 <= Z <= A -> m < m' < A / Z -> In x (rows A Z m) -> In x' (rows A Z m') -> x < x'.
  Proof.
    unfold rows, wid. intros H Hm Hx Hx'. apply in_seq in Hx, Hx'. destruct (m =? A / Z - 1) eqn:Em; [apply Nat.eqb_eq in Em; lia|]. nia.
  Qed.
  Lemma pylons_cover i : In i (flat_map bidx bls) <-> Forall2 lt i [A0; A1; A2].
  Proof.
    rewrite in_flat_map. split.
    - intros ([n m] & Hb & H). apply in_flat_map in Hb. destruct Hb as (n' & Hn & Hb). apply in_map_iff in Hb. destruct Hb as (m' & E & Hm).
      injection E as <- <-. apply in_seq in Hn, Hm. unfold bidx in H. cbn [fst snd] in H. apply in_prod_idx in H.
      inversion H as [|x ? ? ? H1 H2]; subst. inversion H2 as [|y ? ? ? H3 H4]; subst. inversion H4 as [|z ? ? ? H5 H6]; subst. inversion H6; subst.
      repeat constructor.
      + apply (rows_cover A0 X x HX). exists m'. split; [lia|exact H1].
      + apply (rows_cover A1 Y y HY). exists n'. split; [lia|exact H3].
      + apply in_seq in H5. lia.
    - intros H. inversion H as [|x ? ? ? H1 H2]; subst. inversion H2 as [|y ? ? ? H3 H4]; subst. inversion H4 as [|z ? ? ? H5 H6]; subst. inversion H6; subst.
      apply (rows_cover A0 X x HX) in H1. apply (rows_cover A1 Y y HY) in H3. destruct H1 as (m & Hm & H1), H3 as (n & Hn & H3).
      exists (n, m). split.
      + apply in_flat_map. exists n. split; [apply in_seq; lia|]. apply in_map. apply in_seq. lia.
      + unfold bidx. cbn [fst snd]. apply in_prod_idx. repeat constructor; auto. apply in_seq. lia.
  Qed.
  Definition later (a b : nat * nat) : Prop := fst a < fst b \/ (fst a = fst b /\ snd a < snd b).
  Lemma bls_later : ForallOrdPairs later bls.
  Proof.
    apply FOP_flat_map with (S0 := lt); [apply FOP_seq| |].
    - intros n _. apply FOP_map with (S0 := lt); [apply FOP_seq|]. intros x y L. right. auto.
    - intros n n' a b _ _ L Ha Hb. apply in_map_iff in Ha, Hb. destruct Ha as (u & <- & _), Hb as (v & <- & _). left. exact L.
  Qed.
  Lemma in_bls n m : In (n, m) bls -> n < A1 / Y /\ m < A0 / X.
  Proof.
    intros H. apply in_flat_map in H. destruct H as (n' & Hn & H). apply in_map_iff in H. destruct H as (m' & E & Hm). injection E as <- <-.
    apply in_seq in Hn, Hm. lia.
  Qed.
  Lemma pylons_upward : upward (flat_map bidx bls).
  Proof.
    apply FOP_flat_map with (S0 := later); [apply bls_later| |].
    - intros b _. apply upward_prod. intros l [<-|[<-|[<-|[]]]]; apply FOP_seq.
    - intros [n m] [n' m'] a b Hx Hy L Ha Hb F. apply in_bls in Hx, Hy. unfold bidx in Ha, Hb. cbn [fst snd] in *. apply in_prod_idx in Ha, Hb.
      inversion Ha as [|x ? ? ? H1 H2]; subst. inversion H2 as [|y ? ? ? H3 H4]; subst.
      inversion Hb as [|x' ? ? ? G1 G2]; subst. inversion G2 as [|y' ? ? ? G3 G4]; subst.
      inversion F as [|? ? ? ? F1 F2]; subst. inversion F2 as [|? ? ? ? F3 F4]; subst.
      destruct L as [L|[L1 L2]]; cbn [fst snd] in *.
      + assert (y < y') by (apply (rows_order A1 Y n n'); auto; lia). lia.
      + assert (x < x') by (apply (rows_order A0 X m m'); auto; lia). lia.
  Qed.
  Lemma length_all L s : upward L -> (forall i, In i L <-> Forall2 lt i s) -> length L = prodl s.
  Proof.
    intros U C. rewrite <- length_grid. apply Permutation_length. apply NoDup_Permutation; [apply upward_NoDup; exact U|apply NoDup_grid|].
    intros i. rewrite C, in_grid. symmetry. apply inb_F2.
  Qed.
  Lemma pylons_ok g start : exists E P, pylons g start A0 A1 A2 X Y = Some (mkArr [A0; A1; A2] E, (A2, P)) /\
    listed [A0; A1; A2] start E (flat_map bidx bls) /\ P = map bsize bls /\ sum P = A0 * A1 * A2.
  Proof.
    unfold pylons. fold bls. rewrite blocks_ok by (apply incl_refl). cbn [app].
    assert (T : length (flat_map bidx bls) = A0 * A1 * A2).
    { rewrite (length_all _ [A0; A1; A2] pylons_upward pylons_cover). unfold prodl. cbn [fold_right]. lia. }
    replace (start + length (flat_map bidx bls) =? start + A0 * A1 * A2) with true by (symmetry; apply Nat.eqb_eq; lia). eexists _, _. split; [reflexivity|]. split; [|split].
    - split; [apply pylons_upward|]. split; [apply pylons_cover|]. intros k i H. apply fold_set_listed; [apply upward_NoDup, pylons_upward|exact H].
    - reflexivity.
    - rewrite <- T. clear. induction bls as [|b l IH]; [reflexivity|]. cbn [flat_map map]. rewrite sum_cons, app_length, bidx_length, IH. reflexivity.
  Qed.
  Lemma pylons_divide b : In b (map bsize bls) -> exists k, b = k * A2.
  Proof. intros H. apply in_map_iff in H. destruct H as (nm & <- & _). eexists. reflexivity. Qed.
End Pylons.

(** * transposition *)
Lemma find_perm {A} (f : A -> bool) l : (exists x, In x l /\ f x = true) -> exists x, find f l = Some x /\ In x l /\ f x = true.
Proof.
  intros (x & Hx & Hf). destruct (find f l) as [y|] eqn:E.
  - exists y. split; [reflexivity|]. apply find_some in E. exact E.
  - exfalso. rewrite (find_none f l E x Hx) in Hf. discriminate.
Qed.
Lemma F2_3 (R : nat -> nat -> Prop) i a b c : Forall2 R i [a; b; c] <-> exists x y z, i = [x; y; z] /\ R x a /\ R y b /\ R z c.
Proof.
  split.
  - intros H. inversion H as [|x ? ? ? H1 H2]; subst. inversion H2 as [|y ? ? ? H3 H4]; subst. inversion H4 as [|z ? ? ? H5 H6]; subst. inversion H6; subst.
    exists x, y, z. auto.
  - intros (x & y & z & -> & H1 & H2 & H3). repeat constructor; assumption.
Qed.
Lemma perm_ok p a b c x y z : In p perms3 ->
  exists u v w, permute p [a; b; c] = [u; v; w] /\
  (Forall2 lt [x; y; z] [u; v; w] <-> Forall2 lt (unpermute p [x; y; z]) [a; b; c]) /\
  permute p (unpermute p [x; y; z]) = [x; y; z].
Proof.
  intros H. cbn [In perms3] in H. unfold perms3 in H. cbn [In] in H.
  repeat destruct H as [<-|H]; try contradiction; eexists _, _, _; (split; [reflexivity|]); (split; [|reflexivity]);
    rewrite !F2_3; cbn; split; intros (x' & y' & z' & E & H1 & H2 & H3); injection E as <- <- <-; eexists _, _, _; (split; [reflexivity|]); auto.
Qed.
Lemma unperm_perm p x y z : In p perms3 -> unpermute p (permute p [x; y; z]) = [x; y; z].
Proof. unfold perms3. intros H. cbn [In] in H. repeat destruct H as [<-|H]; try contradiction; reflexivity. Qed.
Lemma perm_le p x y z x' y' z' : In p perms3 -> Forall2 le [x; y; z] [x'; y'; z'] <-> Forall2 le (unpermute p [x; y; z]) (unpermute p [x'; y'; z']).
Proof.
  unfold perms3. intros H. cbn [In] in H.
  repeat destruct H as [<-|H]; try contradiction; cbn; rewrite !F2_3;
   split; intros (a & b & c & E & H1 & H2 & H3); injection E as <- <- <-; eexists _, _, _; (split; [reflexivity|]); auto.
Qed.
Lemma F2_len3 i j (R : nat -> nat -> Prop) : Forall2 R i j -> length j = 3 -> exists x y z, i = [x; y; z].
Proof. intros H L. apply F2_length in H. rewrite L in H. destruct i as [|x [|y [|z [|]]]]; try discriminate. eauto. Qed.
Lemma transpose_ok lay a b c f start n : In lay (map (fun p => permute p [a; b; c]) perms3) ->
  bijective [a; b; c] start n f -> increasing [a; b; c] f ->
  exists T, transpose_to lay (mkArr [a; b; c] f) = Some T /\ shp T = lay /\ bijective lay start n (at_ T) /\ increasing lay (at_ T).
Proof.
  intros Hl (B1 & B2 & B3) Inc. unfold transpose_to. cbn [shp at_].
  destruct (find_perm (fun p => if list_eq_dec Nat.eq_dec (permute p [a; b; c]) lay then true else false) perms3) as (p & Ep & Ip & Fp).
  { apply in_map_iff in Hl. destruct Hl as (p & E & Ip). exists p. split; [exact Ip|]. destruct (list_eq_dec Nat.eq_dec (permute p [a; b; c]) lay); [reflexivity|contradiction]. }
  rewrite Ep. destruct (list_eq_dec Nat.eq_dec (permute p [a; b; c]) lay) as [El|]; [|discriminate]. clear Fp.
  eexists. split; [reflexivity|]. cbn [shp at_]. split; [reflexivity|].
  assert (S3 : length lay = 3) by (rewrite <- El; unfold permute; rewrite map_length; unfold perms3 in Ip; cbn [In] in Ip; repeat destruct Ip as [<-|Ip]; try contradiction; reflexivity).
  assert (T : forall x y z, Forall2 lt [x; y; z] lay <-> Forall2 lt (unpermute p [x; y; z]) [a; b; c]).
  { intros x y z. destruct (perm_ok p a b c x y z Ip) as (u & v & w & E & H & _). rewrite <- El, E. exact H. }
  split; [split; [|split]|].
  - intros i Hi. destruct (F2_len3 _ _ _ Hi S3) as (x & y & z & ->). apply B1. apply T. exact Hi.
  - intros k Hk. destruct (B2 k Hk) as (i & Hi & E). destruct (F2_len3 _ _ _ Hi eq_refl) as (x & y & z & ->).
    exists (permute p [x; y; z]).
    assert (Q := unperm_perm p x y z Ip).
    destruct (permute p [x; y; z]) as [|x' [|y' [|z' [|]]]] eqn:EP.
    1-3,5: exfalso; revert EP; clear - Ip; unfold perms3 in Ip; cbn [In] in Ip; repeat destruct Ip as [<-|Ip]; try contradiction; discriminate.
    split; [apply T|]; rewrite Q; assumption.
  - intros i j Hi Hj E. destruct (F2_len3 _ _ _ Hi S3) as (x & y & z & ->). destruct (F2_len3 _ _ _ Hj S3) as (x' & y' & z' & ->).
    apply B3 in E; [|apply T; assumption|apply T; assumption]. 
    destruct (perm_ok p a b c x y z Ip) as (_ & _ & _ & _ & _ & H1). destruct (perm_ok p a b c x' y' z' Ip) as (_ & _ & _ & _ & _ & H2). congruence.
  - intros i j Hi Hj L N. destruct (F2_len3 _ _ _ Hi S3) as (x & y & z & ->). destruct (F2_len3 _ _ _ Hj S3) as (x' & y' & z' & ->).
    apply Inc; [apply T; assumption|apply T; assumption|apply perm_le; assumption|]. intros E. apply N.
    destruct (perm_ok p a b c x y z Ip) as (_ & _ & _ & _ & _ & H1). destruct (perm_ok p a b c x' y' z' Ip) as (_ & _ & _ & _ & _ & H2). congruence.
Qed.
Lemma isort3 a b c : exists u v w, isort [a; b; c] = [u; v; w] /\ In [a; b; c] (map (fun p => permute p [u; v; w]) perms3) /\ u * v * w = a * b * c /\
  (1 <= a -> 1 <= b -> 1 <= c -> 1 <= u /\ 1 <= v /\ 1 <= w).
Proof.
  cbn [isort insert]. destruct (Nat.leb_spec b c); cbn [insert].
  - destruct (Nat.leb_spec a b); [|destruct (Nat.leb_spec a c)]; eexists _, _, _; (split; [reflexivity|]); (split; [cbn; auto 10|]); (split; [lia|]); lia.
  - destruct (Nat.leb_spec a c); [|destruct (Nat.leb_spec a b)]; eexists _, _, _; (split; [reflexivity|]); (split; [cbn; auto 10|]); (split; [lia|]); lia.
Qed.
Lemma identity_perm a b c : In [a; b; c] (map (fun p => permute p [a; b; c]) perms3). Proof. cbn. auto. Qed.
Lemma listed_prod s start f L : listed s start f L -> bijective s start (prodl s) f /\ increasing s f.
Proof. intros H. rewrite <- (length_all L s); [apply listed_ok; exact H|apply H|apply H]. Qed.
Lemma prodl3 a b c : prodl [a; b; c] = a * b * c. Proof. unfold prodl. cbn [fold_right]. lia. Qed.
Lemma cube_width_ok n cne : 1 <= n -> 1 <= cube_width n cne <= n.
Proof.
  intros H. unfold cube_width. cbv zeta. set (i := match find _ _ with Some i => i | None => _ end). generalize i. clear i. intros i.
  destruct (i - 1 =? 0) eqn:E; [apply Nat.eqb_eq in E|apply Nat.eqb_neq in E].
  - destruct ((4 <=? cne) && (1 <? 2)); [destruct (Nat.ltb_spec n 2)|destruct (Nat.ltb_spec n 1)]; lia.
  - destruct ((4 <=? cne) && (i - 1 <? 2)); [destruct (Nat.ltb_spec n 2)|destruct (Nat.ltb_spec n (i - 1))]; lia.
Qed.

Lemma wid_pos A X m : 1 <= X -> 1 <= wid A X m.
Proof. unfold wid. destruct (m =? A / X - 1); lia. Qed.

(** * the numbering of a region *)
Definition para_ok (num : nat) (p : option (nat * list nat)) : Prop :=
  match p with None => True | Some (layers, blocks) => 1 <= layers /\ sum blocks = num /\ forall B, In B blocks -> exists k, B = k * layers /\ 1 <= k end.
Definition lens_ok (num : nat) (sc : scheme) : Prop := match sc with Blocks lens _ _ => lens <> [] /\ sum lens = num | _ => True end.
Definition numbered (lay : list nat) (start : nat) (a : arr nat) : Prop :=
  shp a = lay /\ bijective lay start (prodl lay) (at_ a) /\ increasing lay (at_ a).
Lemma arangeF_ok num start lay : num = prodl lay -> exists a, arangeF num start lay = Some a /\ numbered lay start a.
Proof.
  intros ->. unfold arangeF. rewrite Nat.eqb_refl. eexists. split; [reflexivity|]. split; [reflexivity|]. cbn [at_]. apply (listed_prod _ _ _ _ (listed_F lay start)).
Qed.
Lemma sorted_F start a b c : exists u v w x, isort [a; b; c] = [u; v; w] /\ arangeF (prodl [a; b; c]) start [u; v; w] = Some x /\
  exists T, transpose_to [a; b; c] x = Some T /\ numbered [a; b; c] start T.
Proof.
  destruct (isort3 a b c) as (u & v & w & E & P & M & _). exists u, v, w.
  assert (Q : prodl [a; b; c] = prodl [u; v; w]) by (rewrite !prodl3; lia).
  destruct (arangeF_ok (prodl [a; b; c]) start [u; v; w] Q) as ([s f] & Ex & Sh & Bi & In'). exists (mkArr s f). split; [exact E|]. split; [exact Ex|].
  cbn [shp at_] in *. subst s. destruct (transpose_ok [a; b; c] u v w f start _ P Bi In') as (T & ET & ST & BT & IT). exists T. split; [exact ET|].
  split; [exact ST|]. rewrite Q. split; assumption.
Qed.
Lemma number_region_ok g start lay sc : length lay = 3 -> Forall (fun n => 1 <= n) lay -> lens_ok (prodl lay) sc ->
  exists a para, number_region g start lay sc = Some (a, para) /\ numbered lay start a /\ para_ok (prodl lay) para.
Proof.
  intros L3 Fl HL. destruct lay as [|a [|b [|c [|]]]]; try discriminate. clear L3.
  inversion Fl as [|? ? Ha Fl1]; subst. inversion Fl1 as [|? ? Hb Fl2]; subst. inversion Fl2 as [|? ? Hc _]; subst. clear Fl1 Fl2.
  assert (SF : exists x, arangeF (prodl [a; b; c]) start [a; b; c] = Some x /\ numbered [a; b; c] start x) by (apply arangeF_ok; reflexivity).
  assert (ID : forall x, numbered [a; b; c] start x -> exists T, transpose_to [a; b; c] x = Some T /\ numbered [a; b; c] start T).
  { intros [s f] (Sh & Bi & In'). cbn [shp at_] in *. subst s. destruct (transpose_ok [a; b; c] a b c f start _ (identity_perm a b c) Bi In') as (T & ET & ST & BT & IT).
    exists T. split; [exact ET|]. split; [exact ST|]. split; assumption. }
  destruct sc as [| |lens far [X Y]].
  - destruct SF as (x & Ex & Hx). exists x, None. cbn [number_region]. rewrite Ex. split; [reflexivity|]. split; [exact Hx|exact I].
  - cbn [number_region]. unfold arangeC. rewrite Nat.eqb_refl. eexists _, None. split; [reflexivity|]. split; [|exact I]. split; [reflexivity|].
    cbn [at_]. apply (listed_prod _ _ _ _ (listed_C [a; b; c] start)).
  - unfold number_region. cbn [lens_ok] in HL. destruct HL as (Hne & Hsum).
    destruct ((length lens =? 1) || existsb (Nat.eqb 0) lens).
    { destruct SF as (x & Ex & Hx). exists x, None. rewrite Ex. split; [reflexivity|]. split; [exact Hx|exact I]. }
    destruct (sorted_F start a b c) as (u & v & w & x & Es & Ex & T & ET & HT). rewrite Es.
    destruct (length lens <? 4).
    { rewrite Ex. cbn [option_map]. rewrite ET. eexists _, None. split; [reflexivity|]. split; [exact HT|exact I]. }
    cbv zeta. set (cne := Nat.max 1 (sum lens / length lens)).
    assert (Hc1 : cne <= prodl [a; b; c]).
    { unfold cne. rewrite Hsum. rewrite prodl3. apply Nat.max_lub; [nia|]. apply Nat.div_le_upper_bound; [destruct lens; [contradiction|discriminate]|].
      destruct lens; [contradiction|]. cbn [length]. nia. }
    rewrite (proj2 (Nat.leb_le _ _) Hc1). cbn [negb].
    destruct (cne <=? 3).
    { destruct SF as (y & Ey & Hy). rewrite Ey. cbn [option_map]. destruct (ID y Hy) as (T' & ET' & HT'). rewrite ET'. eexists _, None. split; [reflexivity|]. split; [exact HT'|exact I]. }
    destruct ((a =? b) && (b =? c)) eqn:Eq.
    { apply andb_prop in Eq. destruct Eq as (E1 & E2). apply Nat.eqb_eq in E1, E2. subst b c.
      assert (HW := cube_width_ok a cne Ha).
      destruct (pylons_ok a a a _ _ HW HW g start) as (E & P & EP & HL & HP & HS). rewrite EP. cbn [option_map fst snd].
      destruct (listed_prod _ _ _ _ HL) as (Bi & In'). destruct (ID (mkArr [a; a; a] E)) as (T' & ET' & HT'); [split; [reflexivity|]; split; assumption|]. rewrite ET'.
      eexists _, (Some _). split; [reflexivity|]. split; [exact HT'|]. split; [lia|]. split; [rewrite prodl3; lia|].
      intros B HB. rewrite HP in HB. apply in_map_iff in HB. destruct HB as (nm & <- & _). unfold bsize. eexists. split; [reflexivity|].
      apply Nat.mul_le_mono with (n := 1) (p := 1); apply wid_pos; lia. }
    destruct far.
    { rewrite Ex. cbn [option_map]. rewrite ET. eexists _, None. split; [reflexivity|]. split; [exact HT|exact I]. }
    destruct (u * v * u <=? cne).
    { rewrite Ex. cbn [option_map]. rewrite ET. eexists _, None. split; [reflexivity|]. split; [exact HT|exact I]. }
    destruct (isort3 a b c) as (u' & v' & w' & Es' & P & M & Pos). rewrite Es in Es'. injection Es' as <- <- <-. destruct (Pos Ha Hb Hc) as (Hu & Hv & Hw).
    set (X1 := if X =? 0 then 1 else X). set (Y1 := if Y =? 0 then 1 else Y).
    set (X2 := if _ && _ && _ && (X1 <? 2) then 2 else X1). set (Y2 := if _ && _ && _ && (Y1 <? 2) then 2 else Y1).
    assert (HX : 1 <= (if u <? X2 then u else X2) <= u).
    { assert (1 <= X2) by (unfold X2, X1; destruct (X =? 0) eqn:E0; [|apply Nat.eqb_neq in E0]; match goal with |- context [if ?b then 2 else _] => destruct b end; lia).
      destruct (Nat.ltb_spec u X2); lia. }
    assert (HY : 1 <= (if v <? Y2 then v else Y2) <= v).
    { assert (1 <= Y2) by (unfold Y2, Y1; destruct (Y =? 0) eqn:E0; [|apply Nat.eqb_neq in E0]; match goal with |- context [if ?b then 2 else _] => destruct b end; lia).
      destruct (Nat.ltb_spec v Y2); lia. }
    destruct (pylons_ok u v w _ _ HX HY g start) as (E & Pl & EP & HL & HP & HS). rewrite EP. cbn [option_map fst snd].
    destruct (listed_prod _ _ _ _ HL) as (Bi & In').
    destruct (transpose_ok [a; b; c] u v w E start _ P Bi In') as (T' & ET' & ST & BT & IT). rewrite ET'.
    eexists _, (Some _). split; [reflexivity|]. split.
    + split; [exact ST|]. split; [|exact IT]. replace (prodl [a; b; c]) with (prodl [u; v; w]) by (rewrite !prodl3; lia). exact BT.
    + split; [exact Hw|]. split; [rewrite prodl3; lia|].
      intros B HB. rewrite HP in HB. apply in_map_iff in HB. destruct HB as (nm & <- & _). unfold bsize. eexists. split; [reflexivity|].
      apply Nat.mul_le_mono with (n := 1) (p := 1); apply wid_pos; lia.
Qed.
