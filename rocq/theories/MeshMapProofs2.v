(** Element map. *)
From Coq Require Import List Arith Bool Lia Permutation.
From Verif Require Import Prelude PreludeProofs SpaceModel SpaceProofs MeshModel MeshSpec MeshMapSpec MeshProofs MeshProofs2 MeshMapModel MeshMapProofs.
Import ListNotations.

Lemma idxC_In s i : In i (idxC s) <-> Forall2 lt i s.
Proof.
  revert i. induction s as [|n s IH]; intros i; cbn [idxC].
  - split; [intros [<-|[]]; constructor|intros H; inversion H; now left].
  - rewrite in_flat_map. split.
    + intros (x & H1 & H2). apply in_seq in H1. apply in_map_iff in H2. destruct H2 as (j & <- & H2). constructor; [lia|apply IH; exact H2].
    + intros H. inversion H; subst. exists x. split; [apply in_seq; lia|]. apply in_map. apply IH. assumption.
Qed.
Lemma upd_length l i f : length (upd l i f) = length l.
Proof. revert i. induction l as [|x l IH]; intros [|i]; cbn; auto. Qed.
Lemma upd_nth_same l i f : i < length l -> nth i (upd l i f) 0 = f (nth i l 0).
Proof. revert i. induction l as [|x l IH]; intros [|i] H; cbn in *; try lia; auto. apply IH. lia. Qed.
Lemma upd_nth_other l i f j : j <> i -> nth j (upd l i f) 0 = nth j l 0.
Proof. revert i j. induction l as [|x l IH]; intros [|i] [|j] H; cbn; try reflexivity; try congruence; auto. Qed.
Lemma list_ext (l m : list nat) ax : length l = length m -> nth ax l 0 = nth ax m 0 -> (forall a, a <> ax -> nth a l 0 = nth a m 0) -> l = m.
Proof. intros L E F. apply nth_ext with (d := 0) (d' := 0); [exact L|]. intros n _. destruct (Nat.eq_dec n ax) as [->|N]; auto. Qed.
Lemma F2_lt_nth i s k : Forall2 lt i s -> k < length s -> nth k i 0 < nth k s 0.
Proof. intros H. revert k. induction H; intros [|k] L; cbn in *; try lia. apply IHForall2. lia. Qed.
Lemma F2_lt_intro i s : length i = length s -> (forall k, k < length s -> nth k i 0 < nth k s 0) -> Forall2 lt i s.
Proof.
  revert i. induction s as [|n s IH]; intros [|x i] L H; try discriminate; constructor.
  - exact (H 0 ltac:(cbn; lia)).
  - apply IH; [cbn in L; lia|]. intros k Hk. exact (H (S k) ltac:(cbn; lia)).
Qed.
Lemma all_some_ok {A B} (f : A -> option B) l r : all_some (map f l) = Some r -> Forall2 (fun a b => f a = Some b) l r.
Proof.
  revert r. induction l as [|a l IH]; intros r H; cbn in H; [injection H as <-; constructor|].
  destruct (f a) as [b|] eqn:E; [|discriminate]. destruct (all_some (map f l)) as [r'|] eqn:E2; [|discriminate]. injection H as <-. constructor; auto.
Qed.
Lemma all_some_intro {A B} (f : A -> option B) l r : Forall2 (fun a b => f a = Some b) l r -> all_some (map f l) = Some r.
Proof. intros H. induction H as [|a b l r E H IH]; cbn; [reflexivity|]. rewrite E, IH. reflexivity. Qed.
Lemma sides_In s : In s NSWEBF <-> fst s < 3.
Proof. destruct s as [[|[|[|ax]]] []]; cbn; split; intros H; try lia; auto 10; repeat (destruct H as [H|H]; try discriminate); contradiction. Qed.
Lemma nth_sides s : fst s < 3 -> nth_error NSWEBF (side_index s) = Some s.
Proof. destruct s as [[|[|[|ax]]] []]; cbn; intros H; try reflexivity; lia. Qed.
Lemma side_index_lt s : fst s < 3 -> side_index s < 6.
Proof. destruct s as [ax []]; unfold side_index; cbn; lia. Qed.
Lemma side_index_opp s : side_index (opp s) = facing (side_index s).
Proof.
  destruct s as [ax []]; unfold side_index, facing, opp; cbn [fst snd negb].
  - replace (Nat.even (2 * ax + 1)) with false; [lia|]. rewrite Nat.add_comm, Nat.add_1_l, Nat.even_succ, <- Nat.negb_even. rewrite Nat.even_mul. reflexivity.
  - replace (Nat.even (2 * ax + 0)) with true; [lia|]. rewrite Nat.add_0_r, Nat.even_mul. reflexivity.
Qed.
Lemma side_index_inj s t : side_index s = side_index t -> s = t.
Proof. destruct s as [a []], t as [b []]; unfold side_index; cbn [fst snd]; intros H; f_equal; lia. Qed.

Section EM.
  Context (num : nat -> option (arr nat)) (lays : list (list nat)).
  Context (HN : forall r lay, nth_error lays r = Some lay -> exists a, num r = Some a /\ shp a = lay /\ bijective lay (sum (map prodl (firstn r lays))) (prodl lay) (at_ a)).
  Context (H3 : Forall (fun lay => length lay = 3 /\ Forall (fun n => 1 <= n) lay) lays).
  Notation start r := (sum (map prodl (firstn r lays))).
  Notation located := (MeshMapSpec.located num lays).
  Lemma start_S r lay : nth_error lays r = Some lay -> start (S r) = start r + prodl lay.
  Proof.
    clear. revert r. induction lays as [|l ls IH]; intros [|r] H; try discriminate; cbn [nth_error] in H.
    - injection H as ->. cbn. unfold sum. cbn. lia.
    - cbn [firstn map]. rewrite !sum_cons. rewrite <- Nat.add_assoc. f_equal. exact (IH r H).
  Qed.
  Lemma start_le r r' : r <= r' -> start r <= start r'.
  Proof. intros H. rewrite <- !firstn_map. apply PreludeProofs.sum_firstn_le. exact H. Qed.
  Lemma region_of_spec e r : region_of lays e = Some r <-> r < length lays /\ start r <= e < start (S r).
  Proof.
    clear HN H3. unfold region_of. split.
    - intros H. assert (G := find_some _ _ H). destruct G as (G1 & G2). apply in_seq in G1. apply Nat.ltb_lt in G2. split; [lia|]. split; [|exact G2].
      destruct r as [|r]; [cbn; lia|]. destruct (Nat.le_gt_cases (start (S r)) e) as [Q|Q]; [exact Q|]. exfalso.
      assert (F : forall a n k, a <= k -> k < a + n -> e < start (S k) -> k < S r -> find (fun r => e <? start (S r)) (seq a n) <> Some (S r)).
      { clear. intros a n. revert a. induction n as [|n IH]; intros a k A1 A2 A3 A4; [lia|]. cbn [seq find]. destruct (Nat.ltb_spec e (start (S a))) as [L|L].
        - intros [= E]. destruct (Nat.eq_dec a k); [lia|]. lia.
        - apply (IH (S a) k); try lia. destruct (Nat.eq_dec a k) as [->|]; lia. }
      exact (F 0 (length lays) r ltac:(lia) ltac:(lia) Q ltac:(lia) H).
    - intros (Hr & H1 & H2).
      assert (F : forall n a, a <= r < a + n -> find (fun r => e <? start (S r)) (seq a n) = Some r).
      { induction n as [|n IH]; intros a Ha; [lia|]. cbn [seq find]. destruct (Nat.eq_dec a r) as [->|N]; [rewrite (proj2 (Nat.ltb_lt _ _) H2); reflexivity|].
        assert (L := start_le (S a) r ltac:(lia)). rewrite (proj2 (Nat.ltb_ge _ _)) by lia. apply IH. lia. }
      apply F. lia.
  Qed.
  Lemma find_located e r idx : find_element num lays e = Some (r, idx) <-> located e r idx.
  Proof.
    unfold find_element. split.
    - destruct (region_of lays e) as [r'|] eqn:E; [|discriminate]. apply region_of_spec in E. destruct E as (E & _).
      destruct (nth_error lays r') as [lay|] eqn:El; [|apply nth_error_None in El; lia]. destruct (HN r' lay El) as (a & Ea & Sa & _). rewrite Ea.
      destruct (find _ (idxC (shp a))) as [i|] eqn:Ef; [|discriminate]. intros [= <- <-]. apply find_some in Ef. destruct Ef as (F1 & F2).
      exists lay, a. rewrite Sa in F1. apply idxC_In in F1. apply Nat.eqb_eq in F2. auto.
    - intros (lay & a & El & Ea & F & <-). destruct (HN r lay El) as (a' & Ea' & Sa & B1 & B2 & B3). rewrite Ea in Ea'. injection Ea' as <-.
      assert (R : region_of lays (at_ a idx) = Some r). { apply region_of_spec. split; [apply nth_error_Some; congruence|]. rewrite (start_S r lay El). apply B1. exact F. }
      rewrite R, Ea. destruct (find (fun i => at_ a i =? at_ a idx) (idxC (shp a))) as [j|] eqn:Ef.
      + cbn. apply find_some in Ef. destruct Ef as (F1 & F2). rewrite Sa in F1. apply idxC_In in F1. apply Nat.eqb_eq in F2. rewrite (B3 j idx F1 F F2). reflexivity.
      + exfalso. assert (Q := find_none _ _ Ef idx). rewrite Sa in Q. specialize (Q (proj2 (idxC_In _ _) F)). cbn beta in Q. rewrite Nat.eqb_refl in Q. discriminate.
  Qed.
  Lemma located_fun e r idx r' idx' : located e r idx -> located e r' idx' -> r = r' /\ idx = idx'.
  Proof. intros A B. apply find_located in A, B. rewrite A in B. injection B as -> ->. auto. Qed.
  Lemma located_exists e : e < sum (map prodl lays) -> exists r idx, located e r idx.
  Proof.
    intros H. assert (R : exists r, r < length lays /\ start r <= e < start (S r)).
    { clear HN H3. assert (A : e < start (length lays)) by (rewrite firstn_all; exact H). clear H. revert A. assert (LL : length lays <= length lays) by lia. revert LL. generalize (length lays) at 1 3. intros n.
      induction n as [|n IH]; intros L A; [cbn in A; lia|]. destruct (Nat.le_gt_cases (start n) e) as [Q|Q]; [exists n; lia|apply IH; lia]. }
    destruct R as (r & R1 & R2). destruct (nth_error lays r) as [lay|] eqn:El; [|apply nth_error_None in El; lia]. destruct (HN r lay El) as (a & Ea & Sa & B1 & B2 & B3).
    rewrite (start_S r lay El) in R2. destruct (B2 e R2) as (i & Hi & E). exists r, i, lay, a. auto.
  Qed.
  Lemma located_lt e r idx : located e r idx -> e < sum (map prodl lays) /\ r < length lays.
  Proof.
    intros (lay & a & El & Ea & F & <-). destruct (HN r lay El) as (a' & Ea' & Sa & B1 & B2 & B3). rewrite Ea in Ea'. injection Ea' as <-.
    assert (r < length lays) by (apply nth_error_Some; congruence). split; [|exact H]. specialize (B1 idx F). rewrite <- (start_S r lay El) in B1.
    assert (Q := start_le (S r) (length lays) ltac:(lia)). rewrite firstn_all in Q. lia.
  Qed.
  Lemma get_located r a idx f : num r = Some a -> r < length lays -> get a idx = Some f -> located f r idx.
  Proof.
    intros Ea Hr G. destruct (nth_error lays r) as [lay|] eqn:El; [|apply nth_error_None in El; lia]. destruct (HN r lay El) as (a' & Ea' & Sa & _). rewrite Ea in Ea'. injection Ea' as <-.
    unfold get in G. destruct (inb (shp a) idx) eqn:I1; [|discriminate]. injection G as <-. exists lay, a. rewrite Sa in I1. apply inb_F2 in I1. auto.
  Qed.
  Lemma located_get e r idx : located e r idx -> exists a, num r = Some a /\ get a idx = Some e /\ shp a = nth r lays [] /\ length idx = 3 /\ length (shp a) = 3 /\ Forall2 lt idx (nth r lays []).
  Proof.
    intros (lay & a & El & Ea & F & <-). destruct (HN r lay El) as (a' & Ea' & Sa & _). rewrite Ea in Ea'. injection Ea' as <-.
    assert (L := proj1 (proj1 (Forall_forall _ _) H3 lay (nth_error_In _ _ El))). exists a. split; [exact Ea|]. unfold get. rewrite Sa, (proj2 (inb_F2 lay idx) F). split; [reflexivity|].
    rewrite (nth_error_nth _ _ [] El). split; [reflexivity|]. split; [rewrite (F2_length _ _ _ F); exact L|]. auto.
  Qed.

  Context (rm : nat -> nat -> option nat) (bnames : list nat).
  Context (HR : forall r i n, r < length lays -> i < 6 -> rm r i = Some n -> ~ In n bnames -> n < length lays).
  Notation att := (MeshMapSpec.att rm bnames).
  Lemma at_end_spec r idx (s : side) : Forall2 lt idx (nth r lays []) -> fst s < length (nth r lays []) ->
    (if snd s then nth (fst s) idx 0 + 1 =? nth (fst s) (nth r lays []) 0 else nth (fst s) idx 0 =? 0) = true <-> extreme (snd s) (nth (fst s) (nth r lays []) 0) (nth (fst s) idx 0).
  Proof. intros _ _. unfold extreme. destruct (snd s); apply Nat.eqb_eq. Qed.
  (** what fetch_side returns *)
  Lemma fetch_side_ok e r idx s v : located e r idx -> fst s < 3 -> fetch_side num lays rm bnames r idx s = Some v ->
    match v with
    | El f => exists r' idx', located f r' idx' /\ next_to lays att r idx (fst s) (snd s) r' idx'
    | Bd b => extreme (snd s) (nth (fst s) (nth r lays []) 0) (nth (fst s) idx 0) /\ rm r (side_index s) = Some b /\ In b bnames
    end.
  Proof.
    intros Hl Hs. destruct (located_get e r idx Hl) as (a & Ea & Ge & Sa & Li & L3 & F). assert (Hr := proj2 (located_lt e r idx Hl)).
    assert (Hx : nth (fst s) idx 0 < nth (fst s) (nth r lays []) 0) by (apply F2_lt_nth; [exact F|rewrite <- Sa, L3; exact Hs]).
    assert (AE := at_end_spec r idx s F ltac:(rewrite <- Sa, L3; exact Hs)). unfold fetch_side. cbv zeta.
    destruct (if snd s then _ else _) eqn:E.
    - assert (E0 := proj1 AE eq_refl). destruct (rm r (side_index s)) as [n|] eqn:Er; [|discriminate]. destruct (mem n bnames) eqn:M.
      + intros [= <-]. apply mem_In in M. auto.
      + assert (NM : ~ In n bnames) by (intros G; apply mem_In in G; congruence).
        assert (Hn := HR r (side_index s) n Hr (side_index_lt s Hs) Er NM). destruct (num n) as [a'|] eqn:En; [|discriminate].
        destruct (get a' _) as [f|] eqn:G; [|discriminate]. cbn [option_map]. intros HV. injection HV as <-. exists n. eexists. assert (LF := get_located n a' _ f En Hn G). split; [exact LF|].
        destruct (located_get f n _ LF) as (a2 & Ea2 & _ & Sa2 & Li2 & L32 & F2). rewrite En in Ea2. injection Ea2 as <-.
        apply across; auto.
        * split; [exact Er|exact NM].
        * apply upd_length.
        * rewrite upd_nth_same by lia. unfold extreme. destruct (snd s); cbn [negb]; [reflexivity|]. rewrite Sa2.
          assert (Q := F2_lt_nth _ _ (fst s) F2 ltac:(rewrite <- Sa2, L32; exact Hs)). lia.
        * intros x Nx. apply upd_nth_other. exact Nx.
    - rewrite Ea. destruct (get a (upd _ _ _)) as [f|] eqn:G; [|discriminate]. cbn [option_map]. 
intros HV. injection HV as <-. exists r. eexists. split; [exact (get_located r a _ f Ea Hr G)|].
      apply inside.
      * apply upd_length.
      * rewrite upd_nth_same by lia. unfold moved. destruct (snd s); [reflexivity|]. apply Nat.eqb_neq in E. lia.
      * intros x Nx. apply upd_nth_other. exact Nx.
  Qed.
  (** and conversely *)
  Lemma fetch_side_next e r idx s f r' idx' v : located e r idx -> fst s < 3 -> located f r' idx' -> next_to lays att r idx (fst s) (snd s) r' idx' ->
    fetch_side num lays rm bnames r idx s = Some v -> v = El f.
  Proof.
    intros Hl Hs Hf HX. destruct (located_get e r idx Hl) as (a & Ea & Ge & Sa & Li & L3 & F). assert (Hr := proj2 (located_lt e r idx Hl)).
    assert (AE := at_end_spec r idx s F ltac:(rewrite <- Sa, L3; exact Hs)).
    destruct (located_get f r' idx' Hf) as (a' & Ea' & Gf & Sa' & Li' & L3' & F').
    unfold fetch_side. cbv zeta. inversion HX as [idx2 L2 M T|r2 idx2 X At L2 X2 T]; subst.
    - destruct (if snd s then _ else _) eqn:E.
      + exfalso. assert (E0 := proj1 AE eq_refl). unfold extreme, moved in *. assert (Q := F2_lt_nth _ _ (fst s) F' ltac:(rewrite <- Sa', L3'; exact Hs)). destruct (snd s); lia.
      + rewrite Ea. replace (upd idx (fst s) _) with idx'.
        * assert (a' = a) by congruence. subst a'. rewrite Gf. cbn. congruence.
        * apply (list_ext _ _ (fst s)); [rewrite upd_length; lia| |].
          -- rewrite upd_nth_same by lia. unfold moved in M. destruct (snd s); lia.
          -- intros x Nx. rewrite upd_nth_other by exact Nx. apply T. exact Nx.
    - rewrite (proj2 AE X). destruct At as (At & NB). unfold side_index. rewrite At. destruct (mem r' bnames) eqn:M; [apply mem_In in M; contradiction|].
      rewrite Ea'. replace (upd idx (fst s) _) with idx'; [rewrite Gf; cbn; congruence|].
      apply (list_ext _ _ (fst s)); [rewrite upd_length; lia| |].
      + rewrite upd_nth_same by lia. unfold extreme in X2. rewrite Sa'. destruct (snd s); cbn [negb] in X2; lia.
      + intros x Nx. rewrite upd_nth_other by exact Nx. apply T. exact Nx.
  Qed.
  Lemma next_to_sym (A : nat -> nat -> nat -> Prop) r idx ax (up : bool) r' idx' :
    (forall r', A r (2 * ax + (if up then 1 else 0)) r' -> A r' (2 * ax + (if negb up then 1 else 0)) r) ->
    next_to lays A r idx ax up r' idx' -> next_to lays A r' idx' ax (negb up) r idx.
  Proof.
    clear. intros HA H. inversion H as [idx2 L M T|r2 idx2 X At L X2 T]; subst.
    - apply inside; [congruence| |].
      + unfold moved in *. destruct up; cbn [negb]; lia.
      + intros a Na. symmetry. apply T. exact Na.
    - apply across; auto.
      + rewrite negb_involutive. exact X.
      + intros a Na. symmetry. apply T. exact Na.
  Qed.
  Context (HSYM : forall r i n, r < length lays -> i < 6 -> att r i n -> att n (facing i) r).
  Lemma att_sym r ax (up : bool) r' : r < length lays -> ax < 3 -> att r (2 * ax + (if up then 1 else 0)) r' -> att r' (2 * ax + (if negb up then 1 else 0)) r.
  Proof.
    intros Hr Ha H. assert (Q := HSYM r (side_index (ax, up)) r' Hr (side_index_lt (ax, up) Ha) H). rewrite <- side_index_opp in Q. exact Q.
  Qed.
  Lemma fetch_row e row : fetch num lays rm bnames e = Some row -> exists r idx, located e r idx /\ length row = 6 /\
    forall s, fst s < 3 -> exists v, nth_error row (side_index s) = Some v /\ fetch_side num lays rm bnames r idx s = Some v.
  Proof.
    unfold fetch. destruct (find_element num lays e) as [(r, idx)|] eqn:E; [|discriminate]. intros H. apply find_located in E. apply all_some_ok in H.
    exists r, idx. split; [exact E|]. split; [symmetry; exact (F2_length _ _ _ H)|]. intros s Hs. assert (N := nth_sides s Hs).
    clear - H N. revert N. generalize (side_index s). intros k. revert k. induction H as [|x v l row Hx H IH]; intros [|k] N; try discriminate; cbn in *.
    - injection N as ->. eauto.
    - apply IH. exact N.
  Qed.
  Lemma fetch_sym e f row row' s : fetch num lays rm bnames e = Some row -> fetch num lays rm bnames f = Some row' -> fst s < 3 ->
    nth_error row (side_index s) = Some (El f) -> nth_error row' (side_index (opp s)) = Some (El e).
  Proof.
    intros H1 H2 Hs N. destruct (fetch_row e row H1) as (r & idx & Le & _ & R1). destruct (fetch_row f row' H2) as (r' & idx' & Lf & _ & R2).
    destruct (R1 s Hs) as (v & V1 & V2). rewrite N in V1. injection V1 as <-. assert (Q := fetch_side_ok e r idx s _ Le Hs V2). cbn in Q. destruct Q as (r2 & idx2 & L2 & NX).
    destruct (located_fun f _ _ _ _ Lf L2) as (<- & <-). destruct (R2 (opp s) Hs) as (w & W1 & W2).
    assert (w = El e); [|congruence]. apply (fetch_side_next f r' idx' (opp s) e r idx w Lf Hs Le); [|exact W2]. cbn [opp fst snd].
    apply next_to_sym; [|exact NX]. intros r3 G. apply att_sym; auto. exact (proj2 (located_lt e r idx Le)).
  Qed.
  (** transversal layouts agree if the whole map could be made *)
  Lemma layouts_agree r i r' : r < length lays -> i < 6 -> att r i r' -> (forall e, e < sum (map prodl lays) -> fetch num lays rm bnames e <> None) ->
    forall a, a <> i / 2 -> nth a (nth r lays []) 0 = nth a (nth r' lays []) 0.
  Proof.
    intros Hr Hi At ALL.
    assert (LE : forall r i r', r < length lays -> i < 6 -> att r i r' -> forall a, a <> i / 2 -> nth a (nth r lays []) 0 <= nth a (nth r' lays []) 0).
    { clear r i r' Hr Hi At. intros r i r' Hr Hi At a Na.
      destruct (nth_error lays r) as [lay|] eqn:El; [|apply nth_error_None in El; lia]. destruct (proj1 (Forall_forall _ _) H3 lay (nth_error_In _ _ El)) as (L3 & P).
      rewrite (nth_error_nth _ _ [] El). destruct (Nat.le_gt_cases 3 a) as [A|A]; [rewrite (nth_overflow lay) by lia; lia|].
      assert (Lr' := HR r i r' Hr Hi (proj1 At) (proj2 At)). destruct (nth_error lays r') as [lay'|] eqn:El'; [|apply nth_error_None in El'; lia].
      destruct (proj1 (Forall_forall _ _) H3 lay' (nth_error_In _ _ El')) as (L3' & P'). rewrite (nth_error_nth _ _ [] El').
      set (up := Nat.odd i). set (ax := i / 2) in *. assert (Hax : ax < 3) by (unfold ax; apply Nat.div_lt_upper_bound; lia).
      assert (Ei : i = side_index (ax, up)). { unfold side_index, ax, up. cbn [fst snd]. assert (D := Nat.div_mod_eq i 2). clear - D Hi. do 6 (destruct i as [|i]; [reflexivity|]). lia. }
      assert (PO : forall k, k < 3 -> 1 <= nth k lay 0) by (intros k Hk; apply (proj1 (Forall_forall _ _) P); apply nth_In; lia).
      (* the element in the corner of that side *)
      set (idx := map (fun k => if k =? ax then (if up then nth k lay 0 - 1 else 0) else nth k lay 0 - 1) (seq 0 3)).
      assert (NI : forall k, k < 3 -> nth k idx 0 = if k =? ax then (if up then nth k lay 0 - 1 else 0) else nth k lay 0 - 1) by (intros k Hk; apply nth_map_seq; exact Hk).
      assert (F : Forall2 lt idx lay).
      { apply F2_lt_intro; [unfold idx; rewrite map_length, seq_length; lia|]. intros k Hk. rewrite NI by lia. specialize (PO k ltac:(lia)). destruct (k =? ax), up; lia. }
      destruct (HN r lay El) as (ar & Ear & Sar & _). set (e := at_ ar idx). assert (LO : located e r idx) by (exists lay, ar; auto).
      assert (NE := ALL e (proj1 (located_lt e r idx LO))). destruct (fetch num lays rm bnames e) as [row|] eqn:Ef; [|contradiction].
      destruct (fetch_row e row Ef) as (r1 & idx1 & LO1 & _ & R1). destruct (located_fun e _ _ _ _ LO LO1) as (<- & <-).
      destruct (R1 (ax, up) Hax) as (v & _ & V). assert (Q := fetch_side_ok e r idx (ax, up) v LO Hax V). cbn [fst snd] in Q.
      assert (EX : extreme up (nth ax (nth r lays []) 0) (nth ax idx 0)).
      { rewrite (nth_error_nth _ _ [] El), NI, Nat.eqb_refl by exact Hax. unfold extreme. specialize (PO ax Hax). destruct up; lia. }
      destruct v as [f|b].
      - destruct Q as (r2 & idx2 & L2 & NX). destruct (located_get f r2 idx2 L2) as (a2 & Ea2 & _ & Sa2 & Li2 & L32 & F2).
        inversion NX as [idx3 _ M T|r3 idx3 X At3 L4 X2 T]; subst r2 idx2.
        + exfalso. unfold extreme, moved in *. assert (Z := F2_lt_nth _ _ ax F2 ltac:(rewrite <- Sa2, L32; exact Hax)). destruct up; lia.
        + assert (r3 = r'). { unfold att in At, At3. change (2 * ax + (if up then 1 else 0)) with (side_index (ax, up)) in At3. rewrite <- Ei in At3. destruct At3 as (At3 & _). destruct At. congruence. }
          subst r3. specialize (T a ltac:(congruence)). rewrite NI in T by lia. rewrite (proj2 (Nat.eqb_neq a ax) ltac:(congruence)) in T.
          assert (Z := F2_lt_nth _ _ a F2 ltac:(rewrite <- Sa2, L32; exact A)). rewrite (nth_error_nth _ _ [] El') in Z. specialize (PO a A). lia.
      - exfalso. destruct Q as (_ & Q1 & Q2). rewrite <- Ei in Q1. destruct At as (At1 & At2). assert (b = r') by congruence. subst b. contradiction. }
    intros a Na. assert (L1 := LE r i r' Hr Hi At a Na). assert (Hr' := HR r i r' Hr Hi (proj1 At) (proj2 At)).
    destruct (opp_index_ok i Hi) as (O1 & O2 & _). assert (D : facing i / 2 = i / 2) by (clear - Hi; do 6 (destruct i as [|i]; [reflexivity|]); lia).
    assert (L2 := LE r' (facing i) r Hr' ltac:(lia) (HSYM r i r' Hr Hi At) a ltac:(congruence)). lia.
  Qed.

  (** ** periodic pairs *)
  Definition prow (e : nat) (row : list beside) (p : epair) : list beside :=
    let '(e1, s1, s2, e2) := p in
    let row := if e =? e1 then update row (side_index s1) (El e2) else row in
    if e =? e2 then update row (side_index s2) (El e1) else row.
  Lemma periodic_rows ps : forall m, fold_left periodic_one ps m = map (fun er => (fst er, fold_left (prow (fst er)) ps (snd er))) m.
  Proof.
    clear. induction ps as [|p ps IH]; intros m; cbn [fold_left].
    - symmetry. rewrite <- (map_id m) at 2. apply map_ext. intros [e row]. reflexivity.
    - rewrite IH. destruct p as [[[e1 s1] s2] e2]. unfold periodic_one, put. rewrite !map_map. apply map_ext. intros [e row]. cbn [fst snd prow].
      destruct (Nat.eqb_spec e e1) as [->|N1]; cbn [fst snd]; [destruct (Nat.eqb_spec e1 e2)|destruct (Nat.eqb_spec e e2)]; cbn [fst snd]; reflexivity.
  Qed.
  Definition keys (p : epair) : list (nat * nat) := let '(e1, s1, s2, e2) := p in [(e1, side_index s1); (e2, side_index s2)].
  Lemma prow_length e row ps : length (fold_left (prow e) ps row) = length row.
  Proof.
    clear. revert row. induction ps as [|[[[e1 s1] s2] e2] ps IH]; intros row; cbn [fold_left]; [reflexivity|]. rewrite IH. cbn [prow].
    destruct (e =? e1), (e =? e2); rewrite ?length_update; reflexivity.
  Qed.
  Lemma prow_other e row ps i : ~ In (e, i) (flat_map keys ps) -> nth_error (fold_left (prow e) ps row) i = nth_error row i.
  Proof.
    clear. revert row. induction ps as [|[[[e1 s1] s2] e2] ps IH]; intros row H; cbn [fold_left]; [reflexivity|]. rewrite IH.
    - cbn [flat_map keys app In] in H. cbn [prow].
      assert (A : e = e1 -> side_index s1 <> i) by (intros -> <-; apply H; now left).
      assert (B : e = e2 -> side_index s2 <> i) by (intros -> <-; apply H; right; now left).
      destruct (Nat.eqb_spec e e1), (Nat.eqb_spec e e2); rewrite ?nth_error_update_neq by auto; reflexivity.
    - intros G. apply H. cbn [flat_map]. apply in_or_app. now right.
  Qed.
  Lemma prow_key e1 s1 s2 e2 ps row : NoDup (flat_map keys ps) -> In (e1, s1, s2, e2) ps ->
    (side_index s1 < length row -> nth_error (fold_left (prow e1) ps row) (side_index s1) = Some (El e2)) /\
    (side_index s2 < length row -> nth_error (fold_left (prow e2) ps row) (side_index s2) = Some (El e1)).
  Proof.
    clear. intros ND. revert row. induction ps as [|p ps IH]; intros row H; [contradiction|]. cbn [fold_left flat_map] in *. destruct H as [->|H].
    - cbn [keys app] in ND. inversion ND as [|? ? N1 ND2]; subst. inversion ND2 as [|? ? N2 ND3]; subst. split; intros L.
      + rewrite prow_other by (intros G; apply N1; now right). cbn [prow]. rewrite Nat.eqb_refl. destruct (Nat.eqb_spec e1 e2) as [->|N].
        * rewrite nth_error_update_neq by (intros Q; apply N1; left; congruence). apply nth_error_update_eq. exact L.
        * apply nth_error_update_eq. exact L.
      + rewrite prow_other by exact N2. cbn [prow]. rewrite Nat.eqb_refl. apply nth_error_update_eq. destruct (e2 =? e1); rewrite ?length_update; exact L.
    - assert (ND2 : NoDup (flat_map keys ps)).
      { destruct p as [[[x sx] sy] y]. cbn [keys app] in ND. inversion ND as [|? ? _ ND2]; subst. inversion ND2; assumption. }
      assert (L : forall e, length (prow e row p) = length row) by (intros e; exact (prow_length e row [p])).
      split; intros L1; apply (IH ND2); auto; rewrite L; exact L1.
  Qed.
  Fixpoint same_but (ax : nat) (i j : list nat) : Prop :=
    match ax, i, j with
    | 0, _ :: i', _ :: j' => i' = j'
    | S ax', x :: i', y :: j' => x = y /\ same_but ax' i' j'
    | _, _, _ => False
    end.
  Fixpoint lsame (ax : nat) (i j : list (list nat)) : Prop :=
    match ax, i, j with
    | 0, l :: i', l' :: j' => length l = length l' /\ i' = j'
    | S ax', x :: i', y :: j' => x = y /\ lsame ax' i' j'
    | _, _, _ => False
    end.
  Lemma F2_app {A B} (R : A -> B -> Prop) l m l' m' : Forall2 R l m -> Forall2 R l' m' -> Forall2 R (l ++ l') (m ++ m').
  Proof. clear. intros H. induction H; cbn; auto. Qed.
  Lemma F2_flat_map {A B C D} (Q : A -> B -> Prop) (R : C -> D -> Prop) f g l m : Forall2 Q l m -> (forall a b, Q a b -> Forall2 R (f a) (g b)) -> Forall2 R (flat_map f l) (flat_map g m).
  Proof. clear. intros H HF. induction H; cbn; [constructor|]. apply F2_app; auto. Qed.
  Lemma F2_refl {A} (R : A -> A -> Prop) l : (forall a, R a a) -> Forall2 R l l.
  Proof. clear. intros H. induction l; constructor; auto. Qed.
  Lemma prod_same ls ls' ax : lsame ax ls ls' -> Forall2 (same_but ax) (prod_idx ls) (prod_idx ls').
  Proof.
    clear. revert ls' ax. induction ls as [|l ls IH]; intros [|l' ls'] [|ax] H; try contradiction; cbn [lsame prod_idx] in *.
    - destruct H as (L & <-). apply (F2_flat_map eq); [apply F2_refl; reflexivity|]. intros a b <-. revert l' L. induction l as [|x l IHl]; intros [|x' l'] L; try discriminate; cbn [map]; constructor.
      + reflexivity.
      + apply IHl. cbn in L. lia.
    - destruct H as (<- & H). apply (F2_flat_map (same_but ax)); [apply IH; exact H|]. intros a b Q. induction l as [|x l IHl]; cbn [map]; constructor; [|exact IHl].
      split; [reflexivity|exact Q].
  Qed.
  Lemma same_but_nth ax i j : same_but ax i j -> length i = length j /\ forall a, a <> ax -> nth a i 0 = nth a j 0.
  Proof.
    clear. revert i j. induction ax as [|ax IH]; intros [|x i] [|y j] H; try contradiction; cbn [same_but] in H.
    - subst j. split; [reflexivity|]. intros [|a] N; [congruence|reflexivity].
    - destruct H as (<- & H). destruct (IH i j H) as (A & B). split; [cbn; lia|]. intros [|a] N; [reflexivity|]. cbn. apply B. congruence.
  Qed.
  (** the elements on a side of a region *)
  Lemma side_elements r a s : num r = Some a -> r < length lays -> fst s < 3 -> exists ls, ravel a (side_sel 3 s) = Some (map (at_ a) (prod_idx ls)) /\ NoDup (map (at_ a) (prod_idx ls)) /\
    (forall i, In i (prod_idx ls) -> Forall2 lt i (nth r lays []) /\ extreme (snd s) (nth (fst s) (nth r lays []) 0) (nth (fst s) i 0)) /\
    ls = map (fun k => if k =? fst s then [if snd s then nth k (nth r lays []) 0 - 1 else 0] else seq 0 (nth k (nth r lays []) 0)) [0; 1; 2].
  Proof.
    intros Ea Hr Hs. destruct (nth_error lays r) as [lay|] eqn:El; [|apply nth_error_None in El; lia]. destruct (HN r lay El) as (a' & Ea' & Sa & B1 & B2 & B3). rewrite Ea in Ea'. injection Ea' as <-.
    destruct (proj1 (Forall_forall _ _) H3 lay (nth_error_In _ _ El)) as (L3 & P). rewrite (nth_error_nth _ _ [] El).
    set (ls := map (fun k => if k =? fst s then [if snd s then nth k lay 0 - 1 else 0] else seq 0 (nth k lay 0)) [0; 1; 2]). exists ls.
    assert (PO : forall k, k < 3 -> 1 <= nth k lay 0) by (intros k Hk; apply (proj1 (Forall_forall _ _) P); apply nth_In; lia).
    assert (IX : idxss (side_sel 3 s) lay = Some ls).
    { destruct lay as [|n0 [|n1 [|n2 [|]]]]; try discriminate. assert (1 <= n0) by exact (PO 0 ltac:(lia)). assert (1 <= n1) by exact (PO 1 ltac:(lia)). assert (1 <= n2) by exact (PO 2 ltac:(lia)).
      destruct s as [[|[|[|ax]]] up]; cbn in Hs; try lia; unfold ls, side_sel; cbn [seq map fst snd Nat.eqb idxss]; destruct up; cbn [idxs nth];
        rewrite ?(proj2 (Nat.eqb_neq n0 0)), ?(proj2 (Nat.eqb_neq n1 0)), ?(proj2 (Nat.eqb_neq n2 0)) by lia; reflexivity. }
    assert (IN : forall i, In i (prod_idx ls) -> Forall2 lt i lay /\ extreme (snd s) (nth (fst s) lay 0) (nth (fst s) i 0)).
    { intros i Hi. apply in_prod_idx in Hi.
      assert (Li : length i = 3) by (rewrite (F2_length _ _ _ Hi); reflexivity). assert (NI : forall k, k < 3 -> In (nth k i 0) (if k =? fst s then [if snd s then nth k lay 0 - 1 else 0] else seq 0 (nth k lay 0))).
      { destruct i as [|x [|y [|z [|]]]]; try discriminate. unfold ls in Hi. cbn [map] in Hi. inversion Hi as [|? ? ? ? Q1 Hi2]; subst. inversion Hi2 as [|? ? ? ? Q2 Hi3]; subst. inversion Hi3 as [|? ? ? ? Q3 _]; subst.
        intros [|[|[|k]]] Hk; try lia; assumption. }
      split.
      - apply F2_lt_intro; [lia|]. intros k Hk. specialize (NI k ltac:(lia)). specialize (PO k ltac:(lia)). destruct (k =? fst s).
        + destruct NI as [<-|[]]. destruct (snd s); lia.
        + apply in_seq in NI. lia.
      - specialize (NI (fst s) Hs). rewrite Nat.eqb_refl in NI. destruct NI as [<-|[]]. specialize (PO (fst s) Hs). unfold extreme. destruct (snd s); lia. }
    split; [|split; [|split; [exact IN|reflexivity]]].
    - unfold ravel. rewrite Sa, IX. apply all_some_intro. assert (G : forall i, In i (prod_idx ls) -> get a i = Some (at_ a i)).
      { intros i Hi. unfold get. rewrite Sa, (proj2 (inb_F2 lay i) (proj1 (IN i Hi))). reflexivity. }
      clear - G. induction (prod_idx ls) as [|i l IH]; cbn; constructor; [apply G; now left|apply IH; intros j Hj; apply G; now right].
    - assert (ND : NoDup (prod_idx ls)).
      { apply NoDup_prod_idx. intros l Hl. unfold ls in Hl. apply in_map_iff in Hl. destruct Hl as (k & <- & _). destruct (k =? fst s); [constructor; [intros []|constructor]|apply seq_NoDup]. }
      clear - ND IN B3. induction ND as [|i l Hi ND IH]; cbn; constructor.
      + intros G. apply in_map_iff in G. destruct G as (j & E & Hj). apply Hi. rewrite <- (B3 j i (proj1 (IN j (or_intror Hj))) (proj1 (IN i (or_introl eq_refl))) E). exact Hj.
      + apply IH. intros j Hj. apply IN. now right.
  Qed.
  Lemma match_up_ok s1 s2 : forall l1 l2 ps, match_up s1 s2 l1 l2 = Some ps -> length l1 <= length l2 /\
    ps = map (fun xy => if fst xy <? snd xy then (fst xy, s1, s2, snd xy) else (snd xy, s2, s1, fst xy)) (combine l1 l2).
  Proof.
    clear. induction l1 as [|x l1 IH]; intros [|y l2] ps H; cbn in H; try discriminate.
    - injection H as <-. auto.
    - injection H as <-. split; [cbn; lia|reflexivity].
    - destruct (match_up s1 s2 l1 l2) as [ps'|] eqn:E; [|discriminate]. injection H as <-. destruct (IH l2 ps' E) as (A & ->). split; [cbn; lia|reflexivity].
  Qed.
  (** one pair of region sides *)
  Lemma side_pairs_ok r1 s1 r2 s2 ps : fst s1 < 3 -> side_pairs num (length lays) ((r1, s1), (r2, s2)) = Some ps -> r1 < length lays /\ r2 < length lays /\ s2 = opp s1 /\
    forall p, In p ps -> exists e1 e2 i1 i2, (p = (e1, s1, s2, e2) \/ p = (e2, s2, s1, e1)) /\ located e1 r1 i1 /\ located e2 r2 i2 /\
      extreme (snd s1) (nth (fst s1) (nth r1 lays []) 0) (nth (fst s1) i1 0) /\ extreme (snd s2) (nth (fst s2) (nth r2 lays []) 0) (nth (fst s2) i2 0) /\ length i1 = length i2 /\
      ((forall a, a <> fst s1 -> nth a (nth r1 lays []) 0 = nth a (nth r2 lays []) 0) -> forall a, a <> fst s1 -> nth a i1 0 = nth a i2 0).
  Proof.
    intros Hs. cbn [side_pairs]. destruct ((r1 <? length lays) && (r2 <? length lays) && side_eqb s2 (opp s1)) eqn:E; [|discriminate].
    apply andb_prop in E. destruct E as (E & E3). apply andb_prop in E. destruct E as (E1 & E2). apply Nat.ltb_lt in E1, E2.
    assert (S2 : s2 = opp s1). { unfold side_eqb in E3. apply andb_prop in E3. destruct E3 as (E3 & E4). apply Nat.eqb_eq in E3. apply eqb_prop in E4. destruct s2, (opp s1); cbn in *; congruence. }
    destruct (num r1) as [a1|] eqn:N1; [|discriminate]. destruct (num r2) as [a2|] eqn:N2; [|discriminate].
    destruct (side_elements r1 a1 s1 N1 E1 Hs) as (ls1 & R1 & ND1 & P1 & D1). destruct (side_elements r2 a2 s2 N2 E2 ltac:(rewrite S2; exact Hs)) as (ls2 & R2 & ND2 & P2 & D2).
    rewrite R1, R2. intros M. destruct (match_up_ok _ _ _ _ _ M) as (LL & ->). split; [exact E1|]. split; [exact E2|]. split; [exact S2|].
    intros p Hp. apply in_map_iff in Hp. destruct Hp as ((x, y) & <- & Hxy). cbn [fst snd].
    assert (C : exists i1 i2, In i1 (prod_idx ls1) /\ In i2 (prod_idx ls2) /\ x = at_ a1 i1 /\ y = at_ a2 i2 /\ ((forall a, a <> fst s1 -> nth a (nth r1 lays []) 0 = nth a (nth r2 lays []) 0) -> forall a, a <> fst s1 -> nth a i1 0 = nth a i2 0)).
    { apply In_nth_error in Hxy. destruct Hxy as (k & Hk).
      assert (K : exists i1 i2, nth_error (prod_idx ls1) k = Some i1 /\ nth_error (prod_idx ls2) k = Some i2 /\ x = at_ a1 i1 /\ y = at_ a2 i2).
      { clear - Hk. revert k Hk. generalize (prod_idx ls2). induction (prod_idx ls1) as [|j1 J1 IH]; intros [|j2 J2] [|k] Hk; try discriminate; cbn in *.
        - injection Hk as <- <-. eauto 10.
        - exact (IH J2 k Hk). }
      destruct K as (i1 & i2 & K1 & K2 & -> & ->). exists i1, i2. split; [exact (nth_error_In _ _ K1)|]. split; [exact (nth_error_In _ _ K2)|]. split; [reflexivity|]. split; [reflexivity|].
      intros EQ. assert (LS : lsame (fst s1) ls1 ls2).
      { subst ls1 ls2. rewrite S2. destruct s1 as [[|[|[|ax]]] up]; cbn [fst] in Hs, EQ; try lia; cbn [map fst snd opp Nat.eqb lsame length];
          rewrite ?(EQ 0), ?(EQ 1), ?(EQ 2) by lia; auto. }
      assert (F := prod_same _ _ _ LS). assert (SB : same_but (fst s1) i1 i2). { clear - F K1 K2. revert k K1 K2. induction F; intros [|k] K1 K2; try discriminate; cbn in *; [congruence|eauto]. }
      exact (proj2 (same_but_nth _ _ _ SB)). }
    destruct C as (i1 & i2 & I1 & I2 & -> & -> & EQ). destruct (P1 i1 I1) as (F1 & X1). destruct (P2 i2 I2) as (F2 & X2).
    destruct (nth_error lays r1) as [lay1|] eqn:El1; [|apply nth_error_None in El1; lia]. destruct (nth_error lays r2) as [lay2|] eqn:El2; [|apply nth_error_None in El2; lia].
    assert (L1 : located (at_ a1 i1) r1 i1) by (exists lay1, a1; rewrite (nth_error_nth _ _ [] El1) in F1; auto).
    assert (L2 : located (at_ a2 i2) r2 i2) by (exists lay2, a2; rewrite (nth_error_nth _ _ [] El2) in F2; auto).
    exists (at_ a1 i1), (at_ a2 i2), i1, i2. split; [destruct (at_ a1 i1 <? at_ a2 i2); auto|]. repeat split; auto.
    destruct (located_get _ _ _ L1) as (? & _ & _ & _ & Z1 & _). destruct (located_get _ _ _ L2) as (? & _ & _ & _ & Z2 & _). lia.
  Qed.
  Lemma NoDup_tagged {A B C} (F : A -> list B) (G : A -> list C) (T : B -> C) ps : (forall p, In p ps -> NoDup (F p)) -> (forall p k, In p ps -> In k (F p) -> In (T k) (G p)) ->
    NoDup (flat_map G ps) -> NoDup (flat_map F ps).
  Proof.
    clear. induction ps as [|p ps IH]; intros H1 H2 ND; cbn [flat_map] in *; [constructor|].
    assert (ND2 : NoDup (flat_map G ps)) by (clear - ND; induction (G p) as [|z l IHl]; [exact ND|apply IHl; cbn in ND; inversion ND; assumption]).
    assert (D : forall y, In y (G p) -> In y (flat_map G ps) -> False).
    { clear - ND. induction (G p) as [|z l IHl]; intros y Hy Hc; [contradiction|]. cbn in ND. inversion ND; subst. destruct Hy as [<-|Hy]; [|eauto]. apply H1. apply in_or_app. now right. }
    assert (Q : NoDup (flat_map F ps)) by (apply IH; [intros q Hq; apply H1; now right|intros q k Hq; apply H2; now right|exact ND2]).
    assert (X : forall k, In k (F p) -> ~ In k (flat_map F ps)).
    { intros k Hk Hk2. apply in_flat_map in Hk2. destruct Hk2 as (q & Hq & Hk2). apply (D (T k)); [apply H2; [now left|exact Hk]|]. apply in_flat_map. exists q. split; [exact Hq|]. apply H2; [now right|exact Hk2]. }
    assert (N := H1 p (or_introl eq_refl)). clear - N Q X. induction N as [|k l Hk N IHl]; [exact Q|]. cbn. constructor.
    - intros G. apply in_app_or in G. destruct G as [G|G]; [contradiction|]. exact (X k (or_introl eq_refl) G).
    - apply IHl. intros j Hj. apply X. now right.
  Qed.
  Lemma pair_keys_NoDup r1 s1 r2 s2 ps : fst s1 < 3 -> side_pairs num (length lays) ((r1, s1), (r2, s2)) = Some ps -> (r1, side_index s1) <> (r2, side_index s2) -> NoDup (flat_map keys ps).
  Proof.
    intros Hs H NE. destruct (side_pairs_ok r1 s1 r2 s2 ps Hs H) as (E1 & E2 & S2 & _). cbn [side_pairs] in H.
    destruct ((r1 <? length lays) && (r2 <? length lays) && side_eqb s2 (opp s1)); [|discriminate].
    destruct (num r1) as [a1|] eqn:N1; [|discriminate]. destruct (num r2) as [a2|] eqn:N2; [|discriminate].
    destruct (side_elements r1 a1 s1 N1 E1 Hs) as (ls1 & R1 & ND1 & _ & _). destruct (side_elements r2 a2 s2 N2 E2 ltac:(rewrite S2; exact Hs)) as (ls2 & R2 & ND2 & _ & _).
    rewrite R1, R2 in H. destruct (match_up_ok _ _ _ _ _ H) as (_ & ->). assert (SN : side_index s1 <> side_index s2).
    { intros Q. apply side_index_inj in Q. rewrite S2 in Q. destruct s1 as [? []]; discriminate. }
    clear - ND1 ND2 SN. revert ND1 ND2. generalize (map (at_ a1) (prod_idx ls1)) (map (at_ a2) (prod_idx ls2)). intros l1 l2 ND1. revert l2.
    assert (K : forall l1 l2 k, In k (flat_map keys (map (fun xy => if fst xy <? snd xy then (fst xy, s1, s2, snd xy) else (snd xy, s2, s1, fst xy)) (combine l1 l2))) ->
      (snd k = side_index s1 /\ In (fst k) l1) \/ (snd k = side_index s2 /\ In (fst k) l2)).
    { clear. induction l1 as [|x l1 IH]; intros [|y l2] k Hk; try contradiction. cbn [combine map flat_map fst snd] in Hk. apply in_app_or in Hk. destruct Hk as [Hk|Hk].
      - destruct (x <? y); cbn [keys] in Hk; destruct Hk as [<-|[<-|[]]]; cbn [fst snd]; [left|right|right|left]; split; auto; now left.
      - destruct (IH l2 k Hk) as [(A & B)|(A & B)]; [left|right]; split; auto; now right. }
    induction ND1 as [|x l1 Hx ND1 IH]; intros [|y l2] ND2; try constructor. cbn [combine map flat_map fst snd]. inversion ND2 as [|? ? Hy ND2']; subst. specialize (IH l2 ND2').
    assert (A : ~ In (x, side_index s1) (flat_map keys (map (fun xy => if fst xy <? snd xy then (fst xy, s1, s2, snd xy) else (snd xy, s2, s1, fst xy)) (combine l1 l2)))).
    { intros G. destruct (K _ _ _ G) as [(Q1 & Q2)|(Q1 & _)]; cbn [fst snd] in *; [contradiction|congruence]. }
    assert (B : ~ In (y, side_index s2) (flat_map keys (map (fun xy => if fst xy <? snd xy then (fst xy, s1, s2, snd xy) else (snd xy, s2, s1, fst xy)) (combine l1 l2)))).
    { intros G. destruct (K _ _ _ G) as [(Q1 & _)|(Q1 & Q2)]; cbn [fst snd] in *; [congruence|contradiction]. }
    destruct (x <? y); cbn [keys app]; (constructor; [intros [G|G]; [congruence|contradiction]|constructor; assumption]).
  Qed.
  Context (pairs : list ((nat * side) * (nat * side))).
  (** all elements of the two sides are paired *)
  Lemma side_listed r a s e i ls : num r = Some a -> r < length lays -> fst s < 3 -> located e r i -> extreme (snd s) (nth (fst s) (nth r lays []) 0) (nth (fst s) i 0) ->
    ls = map (fun k => if k =? fst s then [if snd s then nth k (nth r lays []) 0 - 1 else 0] else seq 0 (nth k (nth r lays []) 0)) [0; 1; 2] -> In e (map (at_ a) (prod_idx ls)).
  Proof.
    intros Ea Hr Hs Le X ->. destruct (located_get e r i Le) as (a' & Ea' & G & Sa & Li & L3 & F). rewrite Ea in Ea'. injection Ea' as <-.
    assert (E : at_ a i = e) by (unfold get in G; destruct (inb (shp a) i); [congruence|discriminate]). rewrite <- E. apply in_map. apply in_prod_idx.
    rewrite <- Sa in F. assert (N := fun k H => F2_lt_nth i (shp a) k F H). rewrite L3 in N. rewrite Sa in N.
    destruct i as [|x [|y [|z [|]]]]; try discriminate. assert (N0 := N 0 ltac:(lia)). assert (N1 := N 1 ltac:(lia)). assert (N2 := N 2 ltac:(lia)). clear N. cbn [nth] in N0, N1, N2. 
    unfold extreme in X. destruct s as [ax up]. cbn [fst snd] in *. cbn [map].
    destruct ax as [|[|[|ax]]]; try lia; cbn [Nat.eqb nth] in *;
      (constructor; [|constructor; [|constructor; [|constructor]]]); try (apply in_seq; lia); left; destruct up; lia.
  Qed.
  Lemma combine_cover_l {A B} (l : list A) (m : list B) x : length l <= length m -> In x l -> exists y, In (x, y) (combine l m).
  Proof.
    clear. revert m. induction l as [|a l IH]; intros [|b m] L H; cbn in *; try contradiction; try lia. destruct H as [->|H]; [exists b; now left|].
    destruct (IH m ltac:(lia) H) as [y Hy]. exists y. now right.
  Qed.
  Lemma combine_cover_r {A B} (l : list A) (m : list B) y : length m <= length l -> In y m -> exists x, In (x, y) (combine l m).
  Proof.
    clear. revert m. induction l as [|a l IH]; intros [|b m] L H; cbn in *; try contradiction; try lia. destruct H as [->|H]; [exists a; now left|].
    destruct (IH m ltac:(lia) H) as [x Hx]. exists x. now right.
  Qed.
  Lemma side_pairs_cover r1 s1 r2 s2 ps : fst s1 < 3 -> side_pairs num (length lays) ((r1, s1), (r2, s2)) = Some ps ->
    (forall a, a <> fst s1 -> nth a (nth r1 lays []) 0 = nth a (nth r2 lays []) 0) ->
    forall e r s i, (r, s) = (r1, s1) \/ (r, s) = (r2, s2) -> located e r i -> extreme (snd s) (nth (fst s) (nth r lays []) 0) (nth (fst s) i 0) -> exists p, In p ps /\ In (e, side_index s) (keys p).
  Proof.
    intros Hs. cbn [side_pairs]. destruct ((r1 <? length lays) && (r2 <? length lays) && side_eqb s2 (opp s1)) eqn:E; [|discriminate].
    apply andb_prop in E. destruct E as (E & E3). apply andb_prop in E. destruct E as (E1 & E2). apply Nat.ltb_lt in E1, E2.
    assert (S2 : s2 = opp s1). { unfold side_eqb in E3. apply andb_prop in E3. destruct E3 as (E3 & E4). apply Nat.eqb_eq in E3. apply eqb_prop in E4. destruct s2, (opp s1); cbn in *; congruence. }
    destruct (num r1) as [a1|] eqn:N1; [|discriminate]. destruct (num r2) as [a2|] eqn:N2; [|discriminate].
    destruct (side_elements r1 a1 s1 N1 E1 Hs) as (ls1 & R1 & ND1 & P1 & D1). destruct (side_elements r2 a2 s2 N2 E2 ltac:(rewrite S2; exact Hs)) as (ls2 & R2 & ND2 & P2 & D2).
    rewrite R1, R2. intros M EQ e r s i HRS Le X. destruct (match_up_ok _ _ _ _ _ M) as (LL & ->).
    assert (LS : lsame (fst s1) ls1 ls2).
    { clear - D1 D2 S2 Hs EQ. subst ls1 ls2. rewrite S2. destruct s1 as [[|[|[|ax]]] up]; cbn [fst] in Hs, EQ; try lia; cbn [map fst snd opp Nat.eqb lsame length];
        rewrite ?(EQ 0), ?(EQ 1), ?(EQ 2) by lia; auto. }
    assert (LE : length (map (at_ a1) (prod_idx ls1)) = length (map (at_ a2) (prod_idx ls2))) by (rewrite !map_length; exact (F2_length _ _ _ (prod_same _ _ _ LS))).
    assert (K : forall x y, In (x, y) (combine (map (at_ a1) (prod_idx ls1)) (map (at_ a2) (prod_idx ls2))) ->
      exists p, In p (map (fun xy => if fst xy <? snd xy then (fst xy, s1, s2, snd xy) else (snd xy, s2, s1, fst xy)) (combine (map (at_ a1) (prod_idx ls1)) (map (at_ a2) (prod_idx ls2)))) /\ In (x, side_index s1) (keys p) /\ In (y, side_index s2) (keys p)).
    { clear. intros x y H. eexists. split; [apply in_map_iff; exists (x, y); split; [reflexivity|exact H]|]. cbn [fst snd]. destruct (x <? y); cbn; auto. }
    destruct HRS as [[= -> ->]|[= -> ->]].
    - destruct (combine_cover_l _ (map (at_ a2) (prod_idx ls2)) e (Nat.eq_le_incl _ _ LE) (side_listed r1 a1 s1 e i ls1 N1 E1 Hs Le X D1)) as [y Hy]. destruct (K e y Hy) as (p & Hp & Hk & _). exists p. auto.
    - destruct (combine_cover_r (map (at_ a1) (prod_idx ls1)) _ e (Nat.eq_le_incl _ _ (eq_sym LE)) (side_listed r2 a2 s2 e i ls2 N2 E2 ltac:(rewrite S2; exact Hs) Le X D2)) as [x Hx]. destruct (K x e Hx) as (p & Hp & _ & Hk). exists p. auto.
  Qed.
  Lemma psides_eq p : psides p = [(fst (fst p), side_index (snd (fst p))); (fst (snd p), side_index (snd (snd p)))].
  Proof. reflexivity. Qed.
  Context (HPn : NoDup (flat_map psides pairs)) (HPb : forall p r i, In p pairs -> In (r, i) (psides p) -> exists b, rm r i = Some b /\ In b bnames)
          (HP3 : forall p, In p pairs -> fst (snd (fst p)) < 3).
  Lemma concat_some_ok {A B} (f : A -> option (list B)) l r : concat_some (map f l) = Some r -> exists rs, Forall2 (fun a b => f a = Some b) l rs /\ r = concat rs.
  Proof.
    clear. unfold concat_some. destruct (all_some (map f l)) as [rs|] eqn:E; cbn; [|discriminate]. intros [= <-]. exists rs. split; [apply all_some_ok; exact E|reflexivity].
  Qed.
  Definition tag (k : nat * nat) : option nat * nat := (region_of lays (fst k), snd k).
  Lemma all_pairs_ok ps : concat_some (map (side_pairs num (length lays)) pairs) = Some ps ->
    NoDup (flat_map keys ps) /\
    forall p, In p ps -> exists r1 s1 r2 s2 e1 e2 i1 i2, In ((r1, s1), (r2, s2)) pairs /\ fst s1 < 3 /\ s2 = opp s1 /\ (p = (e1, s1, s2, e2) \/ p = (e2, s2, s1, e1)) /\ located e1 r1 i1 /\ located e2 r2 i2 /\
      extreme (snd s1) (nth (fst s1) (nth r1 lays []) 0) (nth (fst s1) i1 0) /\ extreme (snd s2) (nth (fst s2) (nth r2 lays []) 0) (nth (fst s2) i2 0) /\ length i1 = length i2 /\
      ((forall a, a <> fst s1 -> nth a (nth r1 lays []) 0 = nth a (nth r2 lays []) 0) -> forall a, a <> fst s1 -> nth a i1 0 = nth a i2 0).
  Proof.
    intros H. apply concat_some_ok in H. destruct H as (rs & F & ->).
    assert (ALL : forall p, In p (concat rs) -> exists q l, In q pairs /\ side_pairs num (length lays) q = Some l /\ In p l).
    { clear - F. induction F as [|q l pairs rs E F IH]; intros p Hp; [contradiction|]. cbn [concat] in Hp. apply in_app_or in Hp. destruct Hp as [Hp|Hp].
      - exists q, l. split; [now left|auto].
      - destruct (IH p Hp) as (q' & l' & A & B). exists q', l'. split; [now right|exact B]. }
    split.
    - assert (Q : forall pp rr, Forall2 (fun a b => side_pairs num (length lays) a = Some b) pp rr -> incl pp pairs -> NoDup (flat_map psides pp) -> NoDup (flat_map keys (concat rr))).
      { intros pp rr FF Hin ND. replace (flat_map keys (concat rr)) with (flat_map (fun l => flat_map keys l) rr).
        2:{ clear. induction rr as [|l rr IH]; [reflexivity|]. cbn [flat_map concat]. rewrite flat_map_app, IH. reflexivity. }
        set (G := fun q => match side_pairs num (length lays) q with Some l => flat_map keys l | None => [] end).
        replace (flat_map (fun l => flat_map keys l) rr) with (flat_map G pp).
        2:{ clear - FF. induction FF as [|q l pp rr E FF IH]; [reflexivity|]. cbn [flat_map]. rewrite IH. unfold G. rewrite E. reflexivity. }
        apply (NoDup_tagged G (fun q => map (fun ri => (Some (fst ri), snd ri)) (psides q)) tag).
        - intros [[r1 s1] [r2 s2]] Hq. unfold G. destruct (side_pairs num (length lays) ((r1, s1), (r2, s2))) as [l|] eqn:El; [|constructor].
          apply (pair_keys_NoDup r1 s1 r2 s2 l); [exact (HP3 _ (Hin _ Hq))|exact El|]. clear - ND Hq. intros E.
          assert (N : NoDup (psides ((r1, s1), (r2, s2)))). { clear E. induction pp as [|q pp IH]; [contradiction|]. cbn [flat_map] in ND. destruct Hq as [->|Hq].
            - clear - ND. induction (psides ((r1, s1), (r2, s2))) as [|z l IHl]; [constructor|]. cbn in ND. inversion ND; subst. constructor; [intros G; apply H1; apply in_or_app; now left|auto].
            - apply IH; [|exact Hq]. clear - ND. induction (psides q) as [|z l IHl]; [exact ND|apply IHl; cbn in ND; inversion ND; assumption]. }
          rewrite psides_eq in N; cbn [fst snd] in N. rewrite E in N. inversion N as [|? ? N1 _]; subst. apply N1. now left.
        - intros [[r1 s1] [r2 s2]] k Hq Hk. unfold G in Hk. destruct (side_pairs num (length lays) ((r1, s1), (r2, s2))) as [l|] eqn:El; [|contradiction].
          destruct (side_pairs_ok r1 s1 r2 s2 l (HP3 _ (Hin _ Hq)) El) as (_ & _ & _ & SP). apply in_flat_map in Hk. destruct Hk as (p & Hp & Hk). destruct (SP p Hp) as (e1 & e2 & i1 & i2 & Ep & L1 & L2 & _).
          assert (T1 : region_of lays e1 = Some r1) by (apply find_located in L1; unfold find_element in L1; destruct (region_of lays e1) as [r|]; [|discriminate]; destruct (num r); [|discriminate]; destruct (find _ _); [|discriminate]; cbn in L1; congruence).
          assert (T2 : region_of lays e2 = Some r2) by (apply find_located in L2; unfold find_element in L2; destruct (region_of lays e2) as [r|]; [|discriminate]; destruct (num r); [|discriminate]; destruct (find _ _); [|discriminate]; cbn in L2; congruence).
          unfold tag. rewrite psides_eq. cbn [map fst snd]. destruct Ep as [-> | ->]; cbn [keys] in Hk; destruct Hk as [<-|[<-|[]]]; cbn [fst snd]; rewrite ?T1, ?T2; cbn; auto.
        - clear - ND. replace (flat_map (fun q => map (fun ri : nat * nat => (Some (fst ri), snd ri)) (psides q)) pp) with (map (fun ri : nat * nat => (Some (fst ri), snd ri)) (flat_map psides pp)).
          + apply FinFun.Injective_map_NoDup; [|exact ND]. intros [? ?] [? ?] [= -> ->]. reflexivity.
          + clear. induction pp as [|q pp IH]; [reflexivity|]. cbn [flat_map]. rewrite map_app, IH. reflexivity. }
      apply (Q pairs rs F (incl_refl _) HPn).
    - intros p Hp. destruct (ALL p Hp) as ([[r1 s1] [r2 s2]] & l & Hq & El & Hl). destruct (side_pairs_ok r1 s1 r2 s2 l (HP3 _ Hq) El) as (_ & _ & S2 & SP).
      destruct (SP p Hl) as (e1 & e2 & i1 & i2 & R). exists r1, s1, r2, s2, e1, e2, i1, i2. repeat (split; [tauto || exact (HP3 _ Hq) || exact Hq|]). tauto.
  Qed.
  (** ** the map *)
  Lemma generate_ok els m : generate num lays rm bnames els = Some m -> Forall2 (fun e er => fst er = e /\ fetch num lays rm bnames e = Some (snd er)) els m.
  Proof.
    intros H. apply all_some_ok in H. clear - H. induction H as [|e er els m E H IH]; constructor; [|exact IH]. destruct (fetch num lays rm bnames e); [|discriminate]. injection E as <-. auto.
  Qed.
  Lemma element_map_rows els m : element_map num lays rm bnames pairs els = Some m -> exists ps, concat_some (map (side_pairs num (length lays)) pairs) = Some ps /\
    Forall2 (fun e er => fst er = e /\ exists row0, fetch num lays rm bnames e = Some row0 /\ snd er = fold_left (prow e) ps row0) els m.
  Proof.
    unfold element_map. destruct (generate num lays rm bnames els) as [m0|] eqn:G; [|discriminate]. destruct (concat_some _) as [ps|]; [|discriminate]. intros [= <-]. exists ps. split; [reflexivity|].
    apply generate_ok in G. rewrite periodic_rows. clear - G. induction G as [|e er els m0 (E1 & E2) G IH]; cbn [map]; constructor; [|exact IH]. cbn [fst snd]. split; [exact E1|]. rewrite E1. eauto.
  Qed.
  Lemma key_boundary ps p e i row r idx : concat_some (map (side_pairs num (length lays)) pairs) = Some ps -> In p ps -> In (e, i) (keys p) -> fetch num lays rm bnames e = Some row -> located e r idx ->
    exists b, nth_error row i = Some (Bd b).
  Proof.
    intros H Hp Hk Hf Hl. destruct (all_pairs_ok ps H) as (_ & AP). destruct (AP p Hp) as (r1 & s1 & r2 & s2 & e1 & e2 & i1 & i2 & Hq & Hs & S2 & Ep & L1 & L2 & X1 & X2 & _).
    assert (Q : exists s r0 j, fst s < 3 /\ i = side_index s /\ located e r0 j /\ extreme (snd s) (nth (fst s) (nth r0 lays []) 0) (nth (fst s) j 0) /\ In (r0, side_index s) (psides ((r1, s1), (r2, s2)))).
    { destruct Ep as [-> | ->]; cbn [keys] in Hk; destruct Hk as [[= <- <-]|[[= <- <-]|[]]];
        [exists s1, r1, i1|exists s2, r2, i2|exists s2, r2, i2|exists s1, r1, i1]; (split; [subst s2; exact Hs|]); (split; [reflexivity|]); (split; [assumption|]); (split; [assumption|]); cbn; auto. }
    destruct Q as (s & r0 & j & Hs' & -> & Lj & X & Hps). destruct (HPb _ _ _ Hq Hps) as (b & Eb & Hb).
    destruct (fetch_row e row Hf) as (r' & idx' & Le & _ & R). destruct (located_fun e _ _ _ _ Le Lj) as (-> & ->).
    destruct (R s Hs') as (v & V1 & V2). exists b. rewrite V1. f_equal. revert V2. unfold fetch_side. cbv zeta.
    destruct (located_get e r0 j Lj) as (a & Ea & _ & Sa & Li & L3 & F).
    rewrite (proj2 (at_end_spec r0 j s F ltac:(rewrite <- Sa, L3; exact Hs')) X). rewrite Eb, (proj2 (mem_In b bnames) Hb). congruence.
  Qed.
  Lemma in_keys_dec (e i : nat) l : {In (e, i) l} + {~ In (e, i) l}.
  Proof. apply in_dec. decide equality; apply Nat.eq_dec. Qed.
  Lemma map_symmetric els els' m m' e f row row' s : element_map num lays rm bnames pairs els = Some m -> element_map num lays rm bnames pairs els' = Some m' ->
    In (e, row) m -> In (f, row') m' -> fst s < 3 -> nth_error row (side_index s) = Some (El f) -> nth_error row' (side_index (opp s)) = Some (El e).
  Proof.
    intros H H' I1 I2 Hs N. destruct (element_map_rows els m H) as (ps & EP & R). destruct (element_map_rows els' m' H') as (ps' & EP' & R'). rewrite EP in EP'. injection EP' as <-.
    assert (A : exists row0, fetch num lays rm bnames e = Some row0 /\ row = fold_left (prow e) ps row0).
    { clear - R I1. induction R as [|e0 er els m (E1 & E2) R IH]; [contradiction|]. destruct I1 as [->|I1]; [cbn in *; subst; exact E2|auto]. }
    assert (B : exists row0, fetch num lays rm bnames f = Some row0 /\ row' = fold_left (prow f) ps row0).
    { clear - R' I2. induction R' as [|e0 er els m (E1 & E2) R IH]; [contradiction|]. destruct I2 as [->|I2]; [cbn in *; subst; exact E2|auto]. }
    destruct A as (row0 & F1 & ->). destruct B as (row0' & F2 & ->). destruct (all_pairs_ok ps EP) as (ND & AP).
    destruct (fetch_row e row0 F1) as (r & idx & Le & L6 & _). destruct (fetch_row f row0' F2) as (r' & idx' & Lf & L6' & _).
    assert (HO : fst (opp s) < 3) by exact Hs.
    destruct (in_keys_dec e (side_index s) (flat_map keys ps)) as [K|K].
    - apply in_flat_map in K. destruct K as ([[[e1 t1] t2] e2] & Hp & K).
      destruct (AP _ Hp) as (q1 & s1 & q2 & s2 & x1 & x2 & i1 & i2 & _ & Hs1 & S2 & Ep & _).
      assert (T : t2 = opp t1 /\ fst t1 < 3).
      { destruct Ep as [[= <- <- <- <-]|[= <- <- <- <-]]; [auto|]. rewrite S2. split; [|exact Hs1]. destruct t2; unfold opp; cbn; rewrite negb_involutive; reflexivity. }
      destruct T as (T & T3). destruct (prow_key e1 t1 t2 e2 ps row0 ND Hp) as (Q1 & Q2). destruct (prow_key e1 t1 t2 e2 ps row0' ND Hp) as (Q1' & Q2').
      cbn [keys] in K. destruct K as [[= <- E]|[[= <- E]|[]]].
      + apply side_index_inj in E. subst t1. rewrite Q1 in N by (rewrite L6; apply side_index_lt; exact Hs). injection N as <-.
        rewrite <- T. apply Q2'. rewrite L6', T. apply side_index_lt. exact HO.
      + apply side_index_inj in E. subst t2. rewrite Q2 in N by (rewrite L6; apply side_index_lt; exact Hs). injection N as <-.
        replace (opp s) with t1 by (first [rewrite T|rewrite <- E]; destruct t1; unfold opp; cbn; rewrite negb_involutive; reflexivity). apply Q1'. rewrite L6'. apply side_index_lt. exact T3.
    - rewrite prow_other in N by exact K. assert (N2 := fetch_sym e f row0 row0' s F1 F2 Hs N). rewrite prow_other; [exact N2|].
      intros G. apply in_flat_map in G. destruct G as (p & Hp & G). destruct (key_boundary ps p f _ row0' r' idx' EP Hp G F2 Lf) as (b & Eb). congruence.
  Qed.
  (** where the neighbours are: regions attached, or joined by a periodic pair *)
  Notation att_periodic := (MeshMapSpec.att_periodic rm bnames pairs).
  Lemma map_where els m e row s : element_map num lays rm bnames pairs els = Some m ->
    (forall r1 s1 r2 s2, In ((r1, s1), (r2, s2)) pairs -> forall a, a <> fst s1 -> nth a (nth r1 lays []) 0 = nth a (nth r2 lays []) 0) ->
    In (e, row) m -> fst s < 3 -> exists r idx, located e r idx /\
    exists v, nth_error row (side_index s) = Some v /\
    match v with
    | El f => exists r' idx', located f r' idx' /\ next_to lays att_periodic r idx (fst s) (snd s) r' idx'
    | Bd b => extreme (snd s) (nth (fst s) (nth r lays []) 0) (nth (fst s) idx 0) /\ rm r (side_index s) = Some b /\ In b bnames /\ forall p, In p pairs -> ~ In (r, side_index s) (psides p)
    end.
  Proof.
    intros H EQ I1 Hs. destruct (element_map_rows els m H) as (ps & EP & R).
    assert (A : exists row0, fetch num lays rm bnames e = Some row0 /\ row = fold_left (prow e) ps row0).
    { clear - R I1. induction R as [|e0 er els m (E1 & E2) R IH]; [contradiction|]. destruct I1 as [->|I1]; [cbn in *; subst; exact E2|auto]. }
    destruct A as (row0 & F1 & ->). destruct (all_pairs_ok ps EP) as (ND & AP). destruct (fetch_row e row0 F1) as (r & idx & Le & L6 & RW). exists r, idx. split; [exact Le|].
    destruct (in_keys_dec e (side_index s) (flat_map keys ps)) as [K|K].
    - apply in_flat_map in K. destruct K as ([[[e1 t1] t2] e2] & Hp & K).
      destruct (AP _ Hp) as (q1 & s1 & q2 & s2 & x1 & x2 & i1 & i2 & Hq & Hs1 & S2 & Ep & L1 & L2 & X1 & X2 & LI & EQI).
      specialize (EQI (EQ _ _ _ _ Hq)). destruct (prow_key e1 t1 t2 e2 ps row0 ND Hp) as (Q1 & Q2).
      assert (B1 : forall x y j k qx qy sx, located x qx j -> located y qy k -> fst sx < 3 -> length j = length k ->
        extreme (snd sx) (nth (fst sx) (nth qx lays []) 0) (nth (fst sx) j 0) -> extreme (negb (snd sx)) (nth (fst sx) (nth qy lays []) 0) (nth (fst sx) k 0) -> (forall a, a <> fst sx -> nth a k 0 = nth a j 0) ->
        (psides ((q1, s1), (q2, s2)) = [(qx, side_index sx); (qy, facing (side_index sx))] \/ psides ((q1, s1), (q2, s2)) = [(qy, facing (side_index sx)); (qx, side_index sx)]) ->
        exists r' idx', located y r' idx' /\ next_to lays att_periodic qx j (fst sx) (snd sx) r' idx').
      { intros x y j k qx qy sx G1 G2 G3 G4 G5 G6 G7 G8. exists qy, k. split; [exact G2|]. apply across; auto. left. exists ((q1, s1), (q2, s2)). split; [exact Hq|exact G8]. }
      assert (O2 : opp s2 = s1) by (rewrite S2; destruct s1; unfold opp; cbn; rewrite negb_involutive; reflexivity).
      assert (PS1 : psides ((q1, s1), (q2, s2)) = [(q1, side_index s1); (q2, facing (side_index s1))]) by (rewrite psides_eq; cbn [fst snd]; rewrite S2, side_index_opp; reflexivity).
      assert (PS2 : psides ((q1, s1), (q2, s2)) = [(q1, facing (side_index s2)); (q2, side_index s2)]) by (rewrite psides_eq; cbn [fst snd]; rewrite <- side_index_opp, O2; reflexivity).
      assert (T2 : fst s2 = fst s1 /\ snd s2 = negb (snd s1)) by (rewrite S2; split; reflexivity). destruct T2 as (T2 & T2').
      cbn [keys] in K. destruct K as [[= <- E]|[[= <- E]|[]]]; apply side_index_inj in E.
      + subst t1. exists (El e2). split; [apply Q1; rewrite L6; apply side_index_lt; exact Hs|]. destruct Ep as [[= <- <- <- <-]|[= <- <- <- <-]].
        * destruct (located_fun _ _ _ _ _ Le L1) as (-> & ->). apply (B1 e1 e2 i1 i2 q1 q2 s L1 L2 Hs LI X1); [rewrite <- T2', <- T2; exact X2|intros a Na; symmetry; apply EQI; exact Na|left; exact PS1].
        * destruct (located_fun _ _ _ _ _ Le L2) as (-> & ->). apply (B1 e1 e2 i2 i1 q2 q1 s L2 L1 Hs ltac:(lia) X2); [rewrite T2, T2', negb_involutive; exact X1|intros a Na; apply EQI; congruence|right; exact PS2].
      + subst t2. exists (El e1). split; [apply Q2; rewrite L6; apply side_index_lt; exact Hs|]. destruct Ep as [[= <- <- <- <-]|[= <- <- <- <-]].
        * destruct (located_fun _ _ _ _ _ Le L2) as (-> & ->). apply (B1 e2 e1 i2 i1 q2 q1 s L2 L1 Hs ltac:(lia) X2); [rewrite T2, T2', negb_involutive; exact X1|intros a Na; apply EQI; congruence|right; exact PS2].
        * destruct (located_fun _ _ _ _ _ Le L1) as (-> & ->). apply (B1 e2 e1 i1 i2 q1 q2 s L1 L2 Hs LI X1); [rewrite <- T2', <- T2; exact X2|intros a Na; symmetry; apply EQI; exact Na|left; exact PS1].
    - rewrite prow_other by exact K. destruct (RW s Hs) as (v & V1 & V2). exists v. split; [exact V1|]. assert (Q := fetch_side_ok e r idx s v Le Hs V2). destruct v as [f|b].
      2:{ destruct Q as (Q1 & Q2 & Q3). refine (conj Q1 (conj Q2 (conj Q3 _))). intros [[r1 s1] [r2 s2]] Hp Hin. apply K. rewrite psides_eq in Hin. cbn [fst snd] in Hin.
          apply concat_some_ok in EP. destruct EP as (rss & FF & ->). assert (HS : exists l, side_pairs num (length lays) ((r1, s1), (r2, s2)) = Some l /\ incl l (concat rss)).
          { clear - FF Hp. induction FF as [|q l pairs rss E FF IH]; [contradiction|]. cbn [concat]. destruct Hp as [->|Hp]; [exists l; split; [exact E|intros z Hz; apply in_or_app; now left]|].
            destruct (IH Hp) as (l' & E' & I'). exists l'. split; [exact E'|]. intros z Hz. apply in_or_app. right. apply I'. exact Hz. }
          destruct HS as (l & El & Hl). destruct (side_pairs_cover r1 s1 r2 s2 l (HP3 _ Hp) El (EQ _ _ _ _ Hp) e r s idx) as (p & P1 & P2); auto.
          - destruct Hin as [[= <- Ei]|[[= <- Ei]|[]]]; apply side_index_inj in Ei; subst; auto.
          - apply in_flat_map. exists p. auto. }
      destruct Q as (r' & idx' & Lf & NX). exists r', idx'. split; [exact Lf|]. inversion NX as [idx2 L M T|r2 idx2 X At L X2 T]; subst.
      + apply inside; assumption.
      + apply across; auto. right. split; [|exact At]. intros p Hp Hin. destruct (HPb p _ _ Hp Hin) as (b & Eb & Hb). destruct At as (At & NB). rewrite At in Eb. injection Eb as <-. contradiction.
  Qed.
  (** ** a core has the numberings it needs *)
  Lemma useful_spec r e els periodic : In e els -> region_of lays e = Some r -> useful lays rm periodic els r = true /\ forall i n, i < 6 -> rm r i = Some n -> useful lays rm periodic els n = true.
  Proof.
    clear. intros He Hr. unfold useful. split.
    - apply orb_true_iff. left. apply existsb_exists. exists e. split; [exact He|]. rewrite Hr, Nat.eqb_refl. reflexivity.
    - intros i n Hi Hn. apply orb_true_iff. left. apply existsb_exists. exists e. split; [exact He|]. rewrite Hr. apply orb_true_iff. right. apply existsb_exists. exists i. split; [apply in_seq; lia|]. rewrite Hn. apply Nat.eqb_refl.
  Qed.
  Lemma core_map_full els : core_map num lays rm bnames pairs els = element_map num lays rm bnames pairs els.
  Proof.
    clear HN H3 HR HSYM HPn HPb HP3. unfold core_map, element_map. set (per := flat_map (fun p => [fst (fst p); fst (snd p)]) pairs). set (use := useful lays rm per els).
    assert (G : generate (core_num num use) lays rm bnames els = generate num lays rm bnames els).
    { unfold generate. f_equal. apply map_ext_in. intros e He. f_equal. unfold fetch, find_element. destruct (region_of lays e) as [r|] eqn:Er; [|reflexivity].
      destruct (useful_spec r e els per He Er) as (U1 & U2). unfold core_num at 1. unfold use at 1. rewrite U1. destruct (num r) as [a|] eqn:En; [|reflexivity]. destruct (find _ _) as [idx|]; [|reflexivity]. cbn [option_map].
      f_equal. apply map_ext_in. intros s Hs. unfold fetch_side. cbv zeta. destruct (if snd s then _ else _).
      - destruct (rm r (side_index s)) as [n|] eqn:Ern; [|reflexivity]. destruct (mem n bnames); [reflexivity|]. unfold core_num. unfold use. rewrite (U2 (side_index s) n (side_index_lt s (proj1 (sides_In s) Hs)) Ern). reflexivity.
      - unfold core_num. unfold use. rewrite U1. reflexivity. }
    rewrite G. replace (map (side_pairs (core_num num use) (length lays)) pairs) with (map (side_pairs num (length lays)) pairs); [reflexivity|].
    apply map_ext_in. intros [[r1 s1] [r2 s2]] Hp. assert (U : use r1 = true /\ use r2 = true).
    { split; unfold use, useful; apply orb_true_iff; right; apply mem_In; unfold per; apply in_flat_map; eexists; (split; [exact Hp|]); cbn; auto. }
    destruct U as (U1 & U2). unfold side_pairs, core_num. rewrite U1, U2. reflexivity.
  Qed.
End EM.
