From Coq Require Import List Arith ZArith Bool Lia.
From Verif Require Import Prelude TriModel TriSpec TriProofs TriProofs2.
Import ListNotations.

(* ---------- numbering locations one after another ---------- *)
Definition at_ {L} (seen : list L) (z : Z) (l : L) : Prop := exists n, z = Z.of_nat n /\ nth_error seen n = Some l.
Lemma at_app {L} (seen : list L) more z l : at_ seen z l -> at_ (seen ++ more) z l.
Proof.
  intros (n & E & H). exists n. split; [exact E|]. rewrite nth_error_app1; [exact H|]. apply nth_error_Some. congruence.
Qed.
Lemma at_new {L} (seen more : list L) k l : nth_error more k = Some l -> at_ (seen ++ more) (Z.of_nat (length seen + k)) l.
Proof. intros H. exists (length seen + k). split; [reflexivity|]. rewrite nth_error_app2 by lia. rewrite <- H. f_equal. lia. Qed.
Lemma at_in {L} (seen : list L) z l : at_ seen z l -> In l seen.
Proof. intros (n & _ & H). apply nth_error_In in H. exact H. Qed.
Section Gen.
  Variables (L X : Type) (loc : nat -> X -> L) (ok : X -> Prop).
  Record inv (c : nat) (seen : list L) (cu : nat) (done : nat -> X -> Z) (P : X -> Prop) (val : X -> Z) : Prop := mkInv {
    i_nd : NoDup seen;
    i_cur : cu = length seen;
    i_done : forall c' x, c' < c -> ok x -> at_ seen (done c' x) (loc c' x);
    i_val : forall x, P x -> at_ seen (val x) (loc c x);
    i_ok : forall x, P x -> ok x;
    i_src : forall l, In l seen -> (exists c' x, c' < c /\ ok x /\ l = loc c' x) \/ (exists x, P x /\ l = loc c x) }.
  Lemma inv_ext c seen cu done P P' val : (forall x, P x <-> P' x) -> inv c seen cu done P val -> inv c seen cu done P' val.
  Proof.
    intros E [A1 A2 A3 A4 A5 A6]. constructor; auto.
    - intros x H. apply A4, E, H.
    - intros x H. apply A5, E, H.
    - intros l H. destruct (A6 l H) as [Q|(x & Q1 & Q2)]; [left; exact Q|right]. exists x. split; [apply E; exact Q1|exact Q2].
  Qed.
  Lemma inv_fresh c seen cu done (P Q : X -> Prop) val val' new : inv c seen cu done P val ->
    NoDup new -> (forall l, In l new -> ~ In l seen) ->
    (forall x, Q x -> ok x /\ exists k, nth_error new k = Some (loc c x) /\ val' x = Z.of_nat (cu + k)) ->
    (forall l, In l new -> exists x, Q x /\ l = loc c x) ->
    (forall x, P x -> val' x = val x) ->
    inv c (seen ++ new) (cu + length new) done (fun x => P x \/ Q x) val'.
  Proof.
    intros [A1 A2 A3 A4 A5 A6] N D HQ HL HP. constructor.
    - clear - A1 N D. induction seen as [|a seen IH]; [exact N|]. inversion A1; subst. cbn. constructor.
      + rewrite in_app_iff. intros [H|H]; [tauto|]. apply (D a H). left. reflexivity.
      + apply IH; [assumption|]. intros l Hl Hs. apply (D l Hl). right. exact Hs.
    - rewrite app_length. lia.
    - intros c' x H1 H2. apply at_app. apply A3; assumption.
    - intros x [H|H].
      + rewrite (HP x H). apply at_app. apply A4. exact H.
      + destruct (HQ x H) as (_ & k & E1 & E2). rewrite E2, A2. apply at_new. exact E1.
    - intros x [H|H]; [apply A5; exact H|apply HQ; exact H].
    - intros l H. apply in_app_or in H. destruct H as [H|H].
      + destruct (A6 l H) as [Q'|(x & Q1 & Q2)]; [left; exact Q'|right; exists x; auto].
      + destruct (HL l H) as (x & Q1 & Q2). right. exists x. auto.
  Qed.
  Lemma inv_known c seen cu done (P Q : X -> Prop) val val' : inv c seen cu done P val ->
    (forall x, Q x -> ok x /\ at_ seen (val' x) (loc c x)) ->
    (forall x, P x -> val' x = val x) ->
    inv c seen cu done (fun x => P x \/ Q x) val'.
  Proof.
    intros [A1 A2 A3 A4 A5 A6] HQ HP. constructor; auto.
    - intros x [H|H]; [rewrite (HP x H); apply A4; exact H|apply HQ; exact H].
    - intros x [H|H]; [apply A5; exact H|apply HQ; exact H].
    - intros l H. destruct (A6 l H) as [Q'|(x & Q1 & Q2)]; [left; exact Q'|right; exists x; auto].
  Qed.
  Lemma inv_finish c seen cu done done' (P : X -> Prop) val val' : inv c seen cu done P val ->
    (forall x, ok x -> P x) -> (forall x, ok x -> done' c x = val x) -> (forall c' x, c' < c -> ok x -> done' c' x = done c' x) ->
    inv (S c) seen cu done' (fun _ => False) val'.
  Proof.
    intros [A1 A2 A3 A4 A5 A6] HP H1 H2. constructor; auto.
    - intros c' x Hc Hx. destruct (Nat.eq_dec c' c) as [->|Ne].
      + rewrite (H1 x Hx). apply A4. apply HP. exact Hx.
      + rewrite (H2 c' x); [apply A3|..]; auto; lia.
    - intros x [].
    - intros x [].
    - intros l H. left. destruct (A6 l H) as [(c' & x & Q1 & Q2 & Q3)|(x & Q1 & Q2)].
      + exists c', x. auto.
      + exists c, x. auto.
  Qed.
  Lemma inv_final c seen cu done P val : inv c seen cu done P val -> (forall x, ~ P x) ->
    (forall c' x, c' < c -> ok x -> (0 <= done c' x < Z.of_nat cu)%Z) /\
    (forall c1 x1 c2 x2, c1 < c -> c2 < c -> ok x1 -> ok x2 -> (done c1 x1 = done c2 x2 <-> loc c1 x1 = loc c2 x2)) /\
    (forall k, k < cu -> exists c' x, c' < c /\ ok x /\ done c' x = Z.of_nat k).
  Proof.
    intros [A1 A2 A3 A4 A5 A6] HP. split; [|split].
    - intros c' x Hc Hx. destruct (A3 c' x Hc Hx) as (n & E & H).
      assert (n < length seen) by (apply nth_error_Some; congruence). lia.
    - intros c1 x1 c2 x2 Hc1 Hc2 Hx1 Hx2.
      destruct (A3 c1 x1 Hc1 Hx1) as (n1 & E1 & H1). destruct (A3 c2 x2 Hc2 Hx2) as (n2 & E2 & H2). split; intros E.
      + assert (n1 = n2) by lia. congruence.
      + assert (n1 = n2); [|congruence]. apply (proj1 (NoDup_nth_error seen) A1).
        * apply nth_error_Some. congruence.
        * congruence.
    - intros k Hk. destruct (nth_error seen k) as [l|] eqn:E; [|apply nth_error_None in E; lia].
      destruct (A6 l) as [(c' & x & Q1 & Q2 & Q3)|(x & Q1 & _)]; [apply nth_error_In in E; exact E| |destruct (HP x Q1)].
      exists c', x. split; [exact Q1|]. split; [exact Q2|]. destruct (A3 c' x Q1 Q2) as (n & E' & H).
      assert (n = k); [|congruence]. apply (proj1 (NoDup_nth_error seen) A1).
      + apply nth_error_Some. congruence.
      + congruence.
  Qed.
End Gen.

(* ---------- 0-forms ---------- *)
Definition epos (p m k : nat) : nat * nat := match m with 0 => (p, k + 1) | 1 => (0, k + 1) | _ => (k + 1, p) end.
Lemma map_seq1 {A} (f : nat -> A) n : map f (seq 1 n) = map (fun k => f (k + 1)) (seq 0 n).
Proof. rewrite <- seq_shift, map_map. apply map_ext. intros k. f_equal. lia. Qed.
Lemma find0_epos p A m s : find0 p A m s = flip s (map (fun k => A (fst (epos p m k)) (snd (epos p m k))) (seq 0 (p - 1))).
Proof. unfold find0. f_equal. destruct m as [|[|m]]; cbn [epos fst snd]; rewrite map_seq1; reflexivity. Qed.
Lemma znth_map (f : nat -> Z) n k : k < n -> znth (map f (seq 0 n)) k = f k.
Proof.
  intros H. unfold znth. rewrite (nth_indep _ _ (f 0)) by (rewrite map_length, seq_length; exact H).
  rewrite map_nth, seq_nth by exact H. reflexivity.
Qed.
Lemma znth_arange cu n k : k < n -> znth (arange cu n) k = Z.of_nat (cu + k).
Proof. intros H. unfold arange. rewrite (znth_map (fun k => Z.of_nat (cu + k)) n k H). reflexivity. Qed.
Lemma znth_rev (f : nat -> Z) n k : k < n -> znth (rev (map f (seq 0 n))) k = f (n - 1 - k).
Proof.
  intros H. unfold znth. rewrite rev_nth by (rewrite map_length, seq_length; exact H).
  rewrite map_length, seq_length. change (nth ?a ?l (-1)%Z) with (znth l a). rewrite znth_map by lia. f_equal. lia.
Qed.
Lemma mid_iff p k : mid p k = true <-> 1 <= k < p.
Proof. unfold mid. rewrite andb_true_iff, Nat.leb_le, Nat.ltb_lt. lia. Qed.
Lemma sel0_epos p m i j : m < 3 -> sel0 p m i j = true -> along0 m i j < p - 1 /\ (i, j) = epos p m (along0 m i j).
Proof.
  intros Hm H. three m; cbn [sel0 along0 epos] in *; apply andb_prop in H; destruct H as [H1 H2];
  rewrite ?mid_iff, ?Nat.eqb_eq in *; (split; [lia|]); f_equal; lia.
Qed.
Lemma epos_sel0 p m k : m < 3 -> k < p - 1 -> sel0 p m (fst (epos p m k)) (snd (epos p m k)) = true.
Proof.
  intros Hm Hk. three m; cbn [sel0 epos fst snd]; apply andb_true_intro; rewrite mid_iff, Nat.eqb_eq; lia.
Qed.
Lemma along_epos p m k : m < 3 -> along0 m (fst (epos p m k)) (snd (epos p m k)) = k.
Proof. intros Hm. three m; cbn; lia. Qed.
Lemma epos_ok p m k : m < 3 -> k < p - 1 -> fst (epos p m k) <= p /\ snd (epos p m k) <= p.
Proof. intros Hm Hk. three m; cbn; lia. Qed.
Lemma where0_epos p cells c m k : m < 3 -> k < p - 1 ->
  where0 p cells c (fst (epos p m k)) (snd (epos p m k)) = on_line p (fst (ends (cl cells c) m)) (snd (ends (cl cells c) m)) (k + 1).
Proof.
  intros Hm Hk. unfold where0.
  assert (k + 1 =? 0 = false) as E1 by (apply Nat.eqb_neq; lia).
  assert (k + 1 =? p = false) as E2 by (apply Nat.eqb_neq; lia).
  assert (p =? 0 = false) as E3 by (apply Nat.eqb_neq; lia).
  three m; cbn [epos fst snd ends]; rewrite ?E1, ?E2, ?E3, ?Nat.eqb_refl; reflexivity.
Qed.
Lemma on_line_swap p a b k : a <> b -> 1 <= k < p -> on_line p b a (p - k) = on_line p a b k.
Proof.
  intros Hab Hk. unfold on_line. destruct (Nat.ltb_spec a b), (Nat.ltb_spec b a); try lia; f_equal; lia.
Qed.
Lemma on_line_inj p a b k a' b' k' : a <> b -> a' <> b' -> on_line p a b k = on_line p a' b' k' ->
  (a = a' /\ b = b' /\ (1 <= k < p -> 1 <= k' < p -> k = k')) \/ (a = b' /\ b = a').
Proof.
  intros H1 H2 H. unfold on_line in H.
  destruct (Nat.ltb_spec a b), (Nat.ltb_spec a' b'); injection H as E1 E2 E3; try (left; lia); right; lia.
Qed.
Lemma on_line_LE p a b k : exists x y z, on_line p a b k = LE x y z.
Proof. unfold on_line. destruct (a <? b); eauto. Qed.
(* a position whose location is on a line lies on one of the three edges *)
Lemma where0_line p cells c i j a b k : distinct (cl cells c) -> i <= p -> j <= p -> a <> b ->
  where0 p cells c i j = on_line p a b k ->
  exists n, n < 3 /\ sel0 p n i j = true /\
    where0 p cells c i j = on_line p (fst (ends (cl cells c) n)) (snd (ends (cl cells c) n)) (along0 n i j + 1) /\
    (ends (cl cells c) n = (a, b) \/ ends (cl cells c) n = (b, a)).
Proof.
  intros (D1 & D2 & D3) Hi Hj Hab E.
  assert (exists n, n < 3 /\ sel0 p n i j = true) as (n & Hn & S).
  { destruct (on_line_LE p a b k) as (x & y & z & EL). rewrite EL in E. unfold where0 in E.
    destruct (Nat.eqb_spec j 0); [discriminate|]. destruct (Nat.eqb_spec j p).
    - destruct (Nat.eqb_spec i 0); [discriminate|]. destruct (Nat.eqb_spec i p); [discriminate|].
      exists 2. split; [lia|]. cbn. apply andb_true_intro. rewrite mid_iff, Nat.eqb_eq. lia.
    - destruct (Nat.eqb_spec i 0); [exists 1|destruct (Nat.eqb_spec i p); [exists 0|discriminate]]; (split; [lia|]); cbn;
      apply andb_true_intro; rewrite mid_iff, Nat.eqb_eq; lia. }
  destruct (sel0_epos p n i j Hn S) as [Ha Ep]. exists n. split; [exact Hn|]. split; [exact S|].
  assert (W : where0 p cells c i j = on_line p (fst (ends (cl cells c) n)) (snd (ends (cl cells c) n)) (along0 n i j + 1)).
  { rewrite <- (where0_epos p cells c n (along0 n i j) Hn Ha). rewrite <- Ep. reflexivity. }
  split; [exact W|]. rewrite W in E.
  assert (Dn : fst (ends (cl cells c) n) <> snd (ends (cl cells c) n)).
  { three n; cbn; auto. }
  apply on_line_inj in E; [|exact Dn|exact Hab]. rewrite (surjective_pairing (ends (cl cells c) n)).
  destruct E as [(-> & -> & _)|(-> & ->)]; auto.
Qed.
Lemma NoDup_app_intro {A} (l l' : list A) : NoDup l -> NoDup l' -> (forall x, In x l -> ~ In x l') -> NoDup (l ++ l').
Proof.
  intros H H' D. induction l as [|a l IH]; [exact H'|]. inversion H; subst. cbn. constructor.
  - rewrite in_app_iff. intros [Q|Q]; [tauto|]. apply (D a); [left; reflexivity|exact Q].
  - apply IH; [assumption|]. intros x Hx. apply D. right. exact Hx.
Qed.
Lemma grid_facts a b : length (grid a b) = b * a /\ NoDup (grid a b) /\
       forall i j, i < a -> j < b -> nth_error (grid a b) (i + j * a) = Some (i, j).
Proof.
    unfold grid.
      assert (K : forall s b, length (flat_map (fun j => map (fun i => (i, j)) (seq 0 a)) (seq s b)) = b * a /\
        NoDup (flat_map (fun j => map (fun i => (i, j)) (seq 0 a)) (seq s b)) /\
        forall i j, i < a -> j < b -> nth_error (flat_map (fun j => map (fun i => (i, j)) (seq 0 a)) (seq s b)) (i + j * a) = Some (i, s + j)).
      { intros s b0. revert s. induction b0 as [|b0 IH]; intros s; cbn [seq flat_map].
        - split; [reflexivity|]. split; [constructor|]. intros; lia.
        - destruct (IH (S s)) as (K1 & K2 & K3). split; [rewrite app_length, map_length, seq_length, K1; reflexivity|]. split.
          + apply NoDup_app_intro.
            * apply FinFun.Injective_map_NoDup; [intros x y E; congruence|apply seq_NoDup].
            * exact K2.
            * intros [x y] H1 H2. apply in_map_iff in H1. destruct H1 as (i & E & _). injection E as -> ->.
              apply in_flat_map in H2. destruct H2 as (j & Hj & H2). apply in_map_iff in H2. destruct H2 as (i' & E & _).
              injection E as _ ->. apply in_seq in Hj. lia.
          + intros i j Hi Hj. destruct j as [|j].
            * rewrite Nat.mul_0_l, !Nat.add_0_r. rewrite nth_error_app1 by (rewrite map_length, seq_length; exact Hi).
              rewrite nth_error_map, (nth_error_nth' _ 0) by (rewrite seq_length; exact Hi). rewrite seq_nth by exact Hi. reflexivity.
            * rewrite nth_error_app2 by (rewrite map_length, seq_length; cbn; lia). rewrite map_length, seq_length.
              replace (i + S j * a - a) with (i + j * a) by (cbn; lia). rewrite K3 by lia. f_equal. f_equal. lia. }
      destruct (K 0 b) as (K1 & K2 & K3). split; [exact K1|]. split; [exact K2|]. intros i j Hi Hj. rewrite K3 by assumption. reflexivity. 
Qed.
Section Num0.
  Variables (p : nat) (cells : list tri) (M : smap).
  Hypothesis Hp : 1 <= p.
  Hypothesis HM : manifold cells.
  Hypothesis HD : describes cells M.
  Let N := length cells.
  Let ok (x : nat * nat) : Prop := fst x <= p /\ snd x <= p.
  Let loc (c : nat) (x : nat * nat) : loc0 := where0 p cells c (fst x) (snd x).
  Definition dn0 (done : list arr2) (c : nat) (x : nat * nat) : Z := nth c done ones2 (fst x) (snd x).
  Definition PT (seen : list loc0) (t : nat -> Z) : Prop :=
    forall v, (t v = (-1)%Z /\ ~ In (LV v) seen) \/ at_ seen (t v) (LV v).
  Definition Inv0 (c : nat) (seen : list loc0) (done : list arr2) (P : nat * nat -> Prop) (st : nstate) : Prop :=
    inv loc0 (nat * nat) loc ok c seen (cur st) (dn0 done) P (fun x => arr st (fst x) (snd x)) /\ PT seen (pn st) /\ length done = c.
  Lemma PT_app seen new t : PT seen t -> (forall v, ~ In (LV v) new) -> PT (seen ++ new) t.
  Proof.
    intros H Hn v. destruct (H v) as [[E Hv]|Hv]; [left|right; apply at_app; exact Hv].
    split; [exact E|]. rewrite in_app_iff. intros [Q|Q]; [auto|exact (Hn v Q)].
  Qed.
  Lemma cell_distinct c : c < N -> distinct (cl cells c).
  Proof. apply HM. Qed.
  Lemma ends_ne c m : c < N -> m < 3 -> fst (ends (cl cells c) m) <> snd (ends (cl cells c) m).
  Proof. intros Hc Hm. destruct (cell_distinct c Hc) as (D1 & D2 & D3). three m; cbn; auto. Qed.
  Definition sel (m : nat) (x : nat * nat) : Prop := ok x /\ sel0 p m (fst x) (snd x) = true.
  Lemma ends_inj c m n : c < N -> m < 3 -> n < 3 ->
    ends (cl cells c) n = ends (cl cells c) m \/ ends (cl cells c) n = swap (ends (cl cells c) m) -> n = m.
  Proof.
    intros Hc Hm Hn. destruct (cell_distinct c Hc) as (D1 & D2 & D3).
    three m; three n; unfold swap; cbn [ends fst snd]; intros [E|E]; try reflexivity; inversion E; congruence.
  Qed.
  (* nothing on the line of edge m has been seen *)
  Lemma edge_fresh c m seen cu done P val : c < N -> m < 3 ->
    inv loc0 (nat * nat) loc ok c seen cu done P val ->
    (forall x, P x -> sel0 p m (fst x) (snd x) = false) ->
    (match side_at M c m with SB _ => True | SI other _ _ => c < other end) ->
    forall k, ~ In (on_line p (fst (ends (cl cells c) m)) (snd (ends (cl cells c) m)) k) seen.
  Proof.
    intros Hc Hm HI HP HS k Hin.
    destruct (i_src _ _ _ _ _ _ _ _ _ _ HI _ Hin) as [(c' & x & Hc' & Hx & E)|(x & Hx & E)].
    - symmetry in E. unfold loc in E. assert (c' < N) as Hc'N by lia.
      apply where0_line in E; [|apply cell_distinct; lia|apply Hx|apply Hx|apply ends_ne; assumption].
      destruct E as (n & Hn & _ & _ & E).
      assert (SL : same_line cells c m c' n).
      { unfold same_line. rewrite (surjective_pairing (ends (cl cells c) m)). unfold swap.
        destruct E as [E|E]; rewrite E; cbn [fst snd]; auto. }
      destruct HD as [_ HD']. specialize (HD' c m Hc Hm). destruct (side_at M c m) as [b|other s n'] eqn:Es.
      + apply (HD' c' n); [exact Hc'N|exact Hn|lia|exact SL].
      + destruct HD' as (Ho & Hn' & Hne & F).
        assert (same_line cells c m other n') as SL' by (unfold same_line; destruct s; auto).
        assert (c' = other); [|lia]. destruct HM as [_ HM2]. apply (HM2 c m c' n other n'); try assumption; lia.
    - pose proof (i_ok _ _ _ _ _ _ _ _ _ _ HI x Hx) as Hxo. symmetry in E. unfold loc in E.
      apply where0_line in E; [|apply cell_distinct; exact Hc|apply Hxo|apply Hxo|apply ends_ne; assumption].
      destruct E as (n & Hn & S & _ & E).
      assert (n = m) as ->.
      { apply (ends_inj c m n Hc Hm Hn). unfold swap. rewrite <- (surjective_pairing (ends (cl cells c) m)) in E. exact E. }
      rewrite (HP x Hx) in S. discriminate.
  Qed.
  Lemma step_edge c m seen done P st : c < N -> m < 3 -> Inv0 c seen done P st ->
    (forall x, P x -> sel0 p m (fst x) (snd x) = false) ->
    exists st' seen', num_edge0 p M done c m st = Some st' /\ Inv0 c seen' done (fun x => P x \/ sel m x) st'.
  Proof.
    intros Hc Hm (HI & HT & HL) HP. unfold num_edge0.
    destruct (Nat.ltb_spec 1 p) as [Hp1|Hp1].
    2: { exists st, seen. split; [reflexivity|]. split; [|split; assumption].
         revert HI. apply inv_ext. intros x. split; [auto|]. intros [H|[_ H]]; [exact H|exfalso].
         destruct x as [i j]. apply sel0_epos in H; [|exact Hm]. lia. }
    set (e := ends (cl cells c) m). set (new := map (fun k => on_line p (fst e) (snd e) (k + 1)) (seq 0 (p - 1))).
    assert (He : fst e <> snd e) by (apply ends_ne; assumption).
    assert (Hval : forall (f : nat -> nat -> Z) x, P x -> put (arr st) (sel0 p m) f (fst x) (snd x) = arr st (fst x) (snd x)).
    { intros f x Hx. unfold put. rewrite (HP x Hx). reflexivity. }
    assert (Hnew : forall x, sel m x -> along0 m (fst x) (snd x) < p - 1 /\
       nth_error new (along0 m (fst x) (snd x)) = Some (loc c x)).
    { intros [i j] [Hx S]. cbn [fst snd] in *. destruct (sel0_epos p m i j Hm S) as [Ha Ep]. split; [exact Ha|].
      unfold new. rewrite nth_error_map, (nth_error_nth' _ 0) by (rewrite seq_length; exact Ha).
      rewrite seq_nth by exact Ha. cbn [option_map Nat.add]. f_equal. unfold loc. cbn [fst snd].
      unfold e. rewrite <- (where0_epos p cells c m (along0 m i j) Hm Ha), <- Ep. reflexivity. }
    assert (fresh : (match side_at M c m with SB _ => True | SI other _ _ => c < other end) ->
      exists seen', Inv0 c seen' done (fun x => P x \/ sel m x)
        (mkN (cur st + (p - 1)) (pn st) (put (arr st) (sel0 p m) (fun i j => znth (arange (cur st) (p - 1)) (along0 m i j))))).
    { intros HS. exists (seen ++ new).
      assert (Hfr : forall l, In l new -> ~ In l seen).
      { intros l Hl. unfold new in Hl. apply in_map_iff in Hl. destruct Hl as (k & <- & _).
        apply (edge_fresh c m seen _ _ _ _ Hc Hm HI HP HS). }
      split; [|split].
      - cbn [cur arr]. replace (p - 1) with (length new) at 1 by (unfold new; rewrite map_length, seq_length; reflexivity).
        apply (inv_fresh _ _ _ _ _ _ _ _ P (sel m) _ _ new HI); [|exact Hfr| | |].
        + unfold new. clear - He. assert (G : forall s n, s + n <= p - 1 -> NoDup (map (fun k => on_line p (fst e) (snd e) (k + 1)) (seq s n))).
          { intros s n. revert s. induction n as [|n IH]; intros s Hs; cbn; [constructor|]. constructor; [|apply IH; lia].
            intros Hin. apply in_map_iff in Hin. destruct Hin as (k & E & Hk). apply in_seq in Hk.
            apply on_line_inj in E; [|exact He|exact He]. destruct E as [(_ & _ & E)|[E _]]; [|auto].
            assert (k + 1 = s + 1) by (apply E; lia). lia. }
          apply G. lia.
        + intros x Hx. split; [apply Hx|]. destruct (Hnew x Hx) as [Ha Hn]. exists (along0 m (fst x) (snd x)). split; [exact Hn|].
          unfold put. destruct Hx as [_ S]. rewrite S. apply znth_arange. exact Ha.
        + intros l Hl. unfold new in Hl. apply in_map_iff in Hl. destruct Hl as (k & <- & Hk). apply in_seq in Hk.
          exists (epos p m k). split; [split; [apply epos_ok; lia|apply epos_sel0; lia]|]. unfold loc, e.
          rewrite where0_epos by lia. reflexivity.
        + intros x Hx. apply Hval. exact Hx.
      - apply PT_app; [exact HT|]. intros v Hv. unfold new in Hv. apply in_map_iff in Hv. destruct Hv as (k & E & _).
        destruct (on_line_LE p (fst e) (snd e) (k + 1)) as (x & y & z & EL). congruence.
      - exact HL. }
    destruct (side_at M c m) as [b|other s n] eqn:Es.
    - destruct (fresh I) as (seen' & G). eexists _, seen'. split; [reflexivity|exact G].
    - destruct HD as [_ HD']. specialize (HD' c m Hc Hm). rewrite Es in HD'. destruct HD' as (Ho & Hn & Hne & F).
      destruct (Nat.ltb_spec c other) as [L|L].
      + destruct (fresh L) as (seen' & G). eexists _, seen'. split; [reflexivity|exact G].
      + destruct (Nat.ltb_spec other c) as [L'|L']; [|lia]. eexists _, seen. split; [reflexivity|].
        split; [|split; [exact HT|exact HL]]. cbn [cur arr].
        apply (inv_known _ _ _ _ _ _ _ _ P (sel m) _ _ HI).
        * intros x Hx. split; [apply Hx|]. destruct (Hnew x Hx) as [Ha _]. destruct Hx as [Hx S]. unfold put. rewrite S.
          set (k := along0 m (fst x) (snd x)) in *. rewrite find0_epos.
          assert (El : loc c x = on_line p (fst e) (snd e) (k + 1)).
          { destruct (sel0_epos p m (fst x) (snd x) Hm S) as [_ Ep]. unfold loc, e.
            rewrite <- (where0_epos p cells c m k Hm Ha). unfold k. rewrite <- Ep. reflexivity. }
          rewrite El. fold e in F.
          assert (A : forall k', k' < p - 1 -> at_ seen (nth other done ones2 (fst (epos p n k')) (snd (epos p n k')))
             (on_line p (fst (ends (cl cells other) n)) (snd (ends (cl cells other) n)) (k' + 1))).
          { intros k' Hk'. rewrite <- (where0_epos p cells other n k' Hn Hk').
            apply (i_done _ _ _ _ _ _ _ _ _ _ HI other (epos p n k') L'). apply epos_ok; assumption. }
          destruct s; cbn [flip].
          -- rewrite (znth_map (fun k => nth other done ones2 (fst (epos p n k)) (snd (epos p n k)))) by exact Ha.
             rewrite F. apply A. exact Ha.
          -- rewrite (znth_rev (fun k => nth other done ones2 (fst (epos p n k)) (snd (epos p n k)))) by exact Ha.
             rewrite F. unfold swap. cbn [fst snd].
             rewrite <- (on_line_swap p _ _ (k + 1)).
             ++ replace (p - (k + 1)) with (p - 1 - 1 - k + 1) by lia. apply A. lia.
             ++ apply not_eq_sym. apply ends_ne; assumption.
             ++ lia.
        * intros x Hx. apply Hval. exact Hx.
  Qed.
  Lemma step_vertex c v s seen done P st : c < N -> Inv0 c seen done P st ->
    (exists x, ok x /\ s (fst x) (snd x) = true) ->
    (forall x, ok x -> s (fst x) (snd x) = true -> loc c x = LV v) ->
    (forall x, P x -> s (fst x) (snd x) = false) ->
    exists seen', Inv0 c seen' done (fun x => P x \/ (ok x /\ s (fst x) (snd x) = true)) (num_vertex v s st).
  Proof.
    intros Hc (HI & HT & HL) (x0 & Hx0 & Hs0) HV HP. unfold num_vertex. destruct (pn st v =? -1)%Z eqn:B.
    - apply Z.eqb_eq in B. destruct (HT v) as [[_ Hv]|(n & E & _)]; [|lia].
      exists (seen ++ [LV v]). split; [|split].
      + cbn [cur arr]. apply (inv_fresh _ _ _ _ _ _ _ _ P (fun x => ok x /\ s (fst x) (snd x) = true) _ _ [LV v] HI).
        * constructor; [intros []|constructor].
        * intros l [<-|[]]. exact Hv.
        * intros x [Hx S]. split; [exact Hx|]. exists 0. split; [cbn; rewrite (HV x Hx S); reflexivity|].
          unfold put. rewrite S, Nat.add_0_r. reflexivity.
        * intros l [<-|[]]. exists x0. split; [auto|]. symmetry. apply HV; assumption.
        * intros x Hx. unfold put. rewrite (HP x Hx). reflexivity.
      + cbn [pn]. intros w. destruct (Nat.eqb_spec w v) as [->|Ne].
        * right. replace (cur st) with (length seen + 0) by (rewrite (i_cur _ _ _ _ _ _ _ _ _ _ HI); lia). apply at_new. reflexivity.
        * destruct (HT w) as [[E Hw]|Hw]; [left|right; apply at_app; exact Hw]. split; [exact E|].
          rewrite in_app_iff. intros [Q|[Q|[]]]; [auto|]. congruence.
      + exact HL.
    - destruct (HT v) as [[E _]|Hv]; [lia|]. exists seen. split; [|split; [exact HT|exact HL]]. cbn [cur arr].
      apply (inv_known _ _ _ _ _ _ _ _ P (fun x => ok x /\ s (fst x) (snd x) = true) _ _ HI).
      + intros x [Hx S]. split; [exact Hx|]. unfold put. rewrite S, (HV x Hx S). exact Hv.
      + intros x Hx. unfold put. rewrite (HP x Hx). reflexivity.
  Qed.
  Lemma where0_inside c i j : 1 <= i < p -> 1 <= j < p -> where0 p cells c i j = LI c i j.
  Proof.
    intros Hi Hj. unfold where0. destruct (Nat.eqb_spec j 0); [lia|]. destruct (Nat.eqb_spec j p); [lia|].
    destruct (Nat.eqb_spec i 0); [lia|]. destruct (Nat.eqb_spec i p); [lia|]. reflexivity.
  Qed.
  Lemma where0_LI c c' i j i' j' : where0 p cells c i j = LI c' i' j' -> c' = c /\ i' = i /\ j' = j /\ i <> 0 /\ i <> p /\ j <> 0 /\ j <> p.
  Proof.
    unfold where0. destruct (on_line_LE p (corner (cl cells c) 2) (corner (cl cells c) 1) i) as (x1 & y1 & z1 & ->).
    destruct (on_line_LE p (corner (cl cells c) 0) (corner (cl cells c) 2) j) as (x2 & y2 & z2 & ->).
    destruct (on_line_LE p (corner (cl cells c) 0) (corner (cl cells c) 1) j) as (x3 & y3 & z3 & ->).
    destruct (Nat.eqb_spec j 0); [discriminate|]. destruct (Nat.eqb_spec j p).
    - destruct (Nat.eqb_spec i 0); [discriminate|]. destruct (Nat.eqb_spec i p); discriminate.
    - destruct (Nat.eqb_spec i 0); [discriminate|]. destruct (Nat.eqb_spec i p); [discriminate|].
      intros H. injection H as -> -> ->. auto 8.
  Qed.
  Lemma step_inside c seen done P st : c < N -> Inv0 c seen done P st ->
    (forall x, P x -> mid p (fst x) && mid p (snd x) = false) ->
    exists seen', Inv0 c seen' done (fun x => P x \/ (ok x /\ mid p (fst x) && mid p (snd x) = true)) (num_inside0 p st).
  Proof.
    intros Hc (HI & HT & HL) HP. unfold num_inside0. destruct (Nat.ltb_spec 1 p) as [Hp1|Hp1].
    2: { exists seen. split; [|split; assumption]. revert HI. apply inv_ext. intros x. split; [auto|].
         intros [H|[_ H]]; [exact H|exfalso]. apply andb_prop in H. destruct H as [H _]. apply mid_iff in H. lia. }
    set (new := map (fun ij => LI c (fst ij + 1) (snd ij + 1)) (grid (p - 1) (p - 1))).
    destruct (grid_facts (p - 1) (p - 1)) as (G1 & G2 & G3).
    exists (seen ++ new). split; [|split].
    - cbn [cur arr]. replace ((p - 1) * (p - 1)) with (length new) by (unfold new; rewrite map_length; exact G1).
      apply (inv_fresh _ _ _ _ _ _ _ _ P (fun x => ok x /\ mid p (fst x) && mid p (snd x) = true) _ _ new HI).
      + unfold new. apply FinFun.Injective_map_NoDup; [|exact G2]. intros [x y] [x' y'] E. cbn in E. injection E as E1 E2. f_equal; lia.
      + intros l Hl Hs. unfold new in Hl. apply in_map_iff in Hl. destruct Hl as ([i j] & <- & Hij). cbn [fst snd] in Hs.
        destruct (i_src _ _ _ _ _ _ _ _ _ _ HI _ Hs) as [(c' & x & Hc' & Hx & E)|(x & Hx & E)]; symmetry in E; apply where0_LI in E.
        * lia.
        * pose proof (i_ok _ _ _ _ _ _ _ _ _ _ HI x Hx) as [O1 O2]. specialize (HP x Hx). apply Bool.not_true_iff_false in HP.
          apply HP. apply andb_true_intro. rewrite !mid_iff. lia.
      + intros [i j] [Hx S]. cbn [fst snd] in *. split; [exact Hx|]. apply andb_prop in S. destruct S as [S1 S2]. apply mid_iff in S1, S2.
        exists ((i - 1) + (j - 1) * (p - 1)). split.
        * unfold new. rewrite nth_error_map, G3 by lia. cbn [option_map fst snd]. unfold loc. cbn [fst snd].
          rewrite where0_inside by assumption. f_equal. f_equal; lia.
        * unfold put. replace (mid p i && mid p j) with true by (symmetry; apply andb_true_intro; rewrite !mid_iff; lia).
          unfold aF. lia.
      + intros l Hl. unfold new in Hl. apply in_map_iff in Hl. destruct Hl as ([i j] & <- & Hij). apply in_grid in Hij. cbn [fst snd].
        exists (i + 1, j + 1). unfold ok, loc. cbn [fst snd]. split; [split; [lia|apply andb_true_intro; rewrite !mid_iff; lia]|].
        rewrite where0_inside by lia. reflexivity.
      + intros x Hx. unfold put. rewrite (HP x Hx). reflexivity.
    - apply PT_app; [exact HT|]. intros v Hv. unfold new in Hv. apply in_map_iff in Hv. destruct Hv as (x & E & _). discriminate.
    - exact HL.
  Qed.
  Lemma sel_false m i j : m < 3 -> ~ (sel0 p m i j = true) -> sel0 p m i j = false.
  Proof. intros _ H. apply Bool.not_true_iff_false. exact H. Qed.
  Lemma element0_ok c seen done cu t : c < N -> 
    Inv0 c seen done (fun _ => False) (mkN cu t ones2) ->
    exists st seen', num_element0 p cells M done c cu t = Some st /\ Inv0 (S c) seen' (done ++ [arr st]) (fun _ => False) (mkN (cur st) (pn st) ones2).
  Proof.
    intros Hc H0. unfold num_element0. change (cell_at cells c) with (cl cells c).
    pose proof (cell_distinct c Hc) as (D1 & D2 & D3).
    destruct (cl cells c) as [[v0 v1] v2] eqn:Ec. cbn [corner] in D1, D2, D3.
    destruct (step_vertex c v0 (fun _ j => j =? 0) seen done (fun _ => False) _ Hc H0) as (s1 & H1).
    { exists (0, 0). split; [unfold ok; cbn; lia|reflexivity]. }
    { intros [i j] _ S. cbn [fst snd] in S. unfold loc, where0. cbn [fst snd]. rewrite S, Ec. reflexivity. }
    { intros x []. }
    cbv zeta. set (st1 := num_vertex v0 (fun _ j => j =? 0) (mkN cu t ones2)) in *.
    destruct (step_edge c 1 s1 done _ st1 Hc ltac:(lia) H1) as (st2 & s2 & E2 & H2).
    { intros [i j] [[]|[_ S]]. cbn [fst snd] in *. apply Nat.eqb_eq in S. subst j. cbn. rewrite andb_false_r. reflexivity. }
    rewrite E2. cbn [bind].
    destruct (step_inside c s2 done _ st2 Hc H2) as (s3 & H3).
    { intros [i j] [[[]|[_ S]]|[_ S]]; cbn [fst snd] in *; apply Bool.not_true_iff_false; rewrite andb_true_iff, !mid_iff.
      - apply Nat.eqb_eq in S. lia.
      - cbn in S. apply andb_prop in S. destruct S as [S _]. apply Nat.eqb_eq in S. lia. }
    destruct (step_edge c 0 s3 done _ (num_inside0 p st2) Hc ltac:(lia) H3) as (st4 & s4 & E4 & H4).
    { intros [i j] [[[[]|[_ S]]|[_ S]]|[_ S]]; cbn [fst snd sel0] in *; apply Bool.not_true_iff_false;
      rewrite ?andb_true_iff, ?mid_iff, ?Nat.eqb_eq in *; lia. }
    rewrite E4. cbn [bind].
    destruct (step_vertex c v2 (fun i j => (i =? 0) && (j =? p)) s4 done _ st4 Hc H4) as (s5 & H5).
    { exists (0, p). split; [unfold ok; cbn; lia|]. cbn. apply Nat.eqb_refl. }
    { intros [i j] _ S. cbn [fst snd] in S. rewrite andb_true_iff, !Nat.eqb_eq in S. destruct S as [-> ->].
      unfold loc, where0. cbn [fst snd]. rewrite Ec, Nat.eqb_refl. destruct (Nat.eqb_spec p 0); [lia|]. reflexivity. }
    { intros [i j] [[[[[]|[_ S]]|[_ S]]|[_ S]]|[_ S]]; cbn [fst snd sel0] in *; apply Bool.not_true_iff_false;
      rewrite ?andb_true_iff, ?mid_iff, ?Nat.eqb_eq in *; lia. }
    set (st5 := num_vertex v2 (fun i j => (i =? 0) && (j =? p)) st4) in *.
    destruct (step_edge c 2 s5 done _ st5 Hc ltac:(lia) H5) as (st6 & s6 & E6 & H6).
    { intros [i j] [[[[[[]|[_ S]]|[_ S]]|[_ S]]|[_ S]]|[_ S]]; cbn [fst snd sel0] in *; apply Bool.not_true_iff_false;
      rewrite ?andb_true_iff, ?mid_iff, ?Nat.eqb_eq in *; lia. }
    rewrite E6. cbn [bind].
    destruct (step_vertex c v1 (fun i j => (i =? p) && (j =? p)) s6 done _ st6 Hc H6) as (s7 & H7).
    { exists (p, p). split; [unfold ok; cbn; lia|]. cbn. rewrite !Nat.eqb_refl. reflexivity. }
    { intros [i j] _ S. cbn [fst snd] in S. rewrite andb_true_iff, !Nat.eqb_eq in S. destruct S as [-> ->].
      unfold loc, where0. cbn [fst snd]. rewrite Ec, Nat.eqb_refl. destruct (Nat.eqb_spec p 0); [lia|]. reflexivity. }
    { intros [i j] [[[[[[[]|[_ S]]|[_ S]]|[_ S]]|[_ S]]|[_ S]]|[_ S]]; cbn [fst snd sel0] in *; apply Bool.not_true_iff_false;
      rewrite ?andb_true_iff, ?mid_iff, ?Nat.eqb_eq in *; lia. }
    eexists _, s7. split; [reflexivity|]. destruct H7 as (I7 & T7 & L7). split; [|split; [exact T7|rewrite app_length; cbn; lia]].
    cbn [cur arr pn].
    apply (inv_finish _ _ _ _ _ _ _ _ _ _ _ _ I7).
    - intros [i j] Hx. unfold sel. cbn [fst snd sel0]. pose proof Hx as [O1 O2]. cbn [fst snd] in O1, O2.
      rewrite !andb_true_iff, !mid_iff, !Nat.eqb_eq.
      destruct (Nat.eq_dec j 0); [tauto|]. destruct (Nat.eq_dec j p); destruct (Nat.eq_dec i 0); destruct (Nat.eq_dec i p); try tauto;
      assert (1 <= j) by lia; assert (1 <= i \/ i = 0) by lia; assert (i < p \/ i = p) by lia; assert (j < p \/ j = p) by lia; intuition.
    - intros x _. unfold dn0. rewrite app_nth2 by lia. rewrite L7, Nat.sub_diag. reflexivity.
    - intros c' x Hc' _. unfold dn0. rewrite app_nth1 by lia. reflexivity.
  Qed.
  Lemma elements0_ok n c seen done cu t : c + n <= N ->
    Inv0 c seen done (fun _ => False) (mkN cu t ones2) ->
    exists done' cu' seen' t', num_elements0 p cells M (seq c n) done cu t = Some (done', cu') /\
      Inv0 (c + n) seen' done' (fun _ => False) (mkN cu' t' ones2).
  Proof.
    revert c seen done cu t. induction n as [|n IH]; intros c seen done cu t Hn H.
    - exists done, cu, seen, t. split; [reflexivity|]. rewrite Nat.add_0_r. exact H.
    - cbn [seq num_elements0]. destruct (element0_ok c seen done cu t ltac:(lia) H) as (st & seen' & E & H').
      rewrite E. cbn [bind].
      destruct (IH (S c) seen' (done ++ [arr st]) (cur st) (pn st) ltac:(lia) H') as (done' & cu' & seen'' & t' & E' & H'').
      exists done', cu', seen'', t'. split; [exact E'|]. replace (c + S n) with (S c + n) by lia. exact H''.
  Qed.
  Lemma numbering0_ok : exists A n, numbering0 p cells M = Some (A, n) /\ length A = N /\
    (forall c i j, c < N -> i <= p -> j <= p -> (0 <= nth c A ones2 i j < Z.of_nat n)%Z) /\
    (forall c i j c' i' j', c < N -> c' < N -> i <= p -> j <= p -> i' <= p -> j' <= p ->
       (nth c A ones2 i j = nth c' A ones2 i' j' <-> where0 p cells c i j = where0 p cells c' i' j')) /\
    (forall k, k < n -> exists c i j, c < N /\ i <= p /\ j <= p /\ nth c A ones2 i j = Z.of_nat k).
  Proof.
    destruct (elements0_ok N 0 [] [] 0 (fun _ => (-1)%Z)) as (A & n & seen & t & E & (HI & _ & HL)).
    - lia.
    - split; [|split; [|reflexivity]].
      + constructor; [constructor|reflexivity| | | |].
        * intros; lia.
        * intros x [].
        * intros x [].
        * intros l [].
      + intros v. left. auto.
    - exists A, n. split; [exact E|]. split; [exact HL|]. cbn [Nat.add] in HI.
      destruct (inv_final _ _ _ _ _ _ _ _ _ _ HI (fun x F => F)) as (F1 & F2 & F3). unfold dn0 in *. cbn [cur] in *. split; [|split].
      + intros c i j Hc Hi Hj. apply (F1 c (i, j)); [exact Hc|split; assumption].
      + intros c i j c' i' j' Hc Hc' Hi Hj Hi' Hj'. apply (F2 c (i, j) c' (i', j')); try assumption; split; assumption.
      + intros k Hk. destruct (F3 k Hk) as (c & [i j] & Hc & [Hi Hj] & Ek). exists c, i, j. auto.
  Qed.
End Num0.
