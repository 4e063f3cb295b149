(* The numbering without nodes inside: as in TriProofs4. *)
From Coq Require Import List Arith ZArith Bool Lia.
From Verif Require Import Prelude TriModel TriSpec TriProofs TriProofs2 TriProofs4 VtkModel.
Import ListNotations.
Section NumQ.
  Variables (p : nat) (cells : list tri) (M : smap).
  Hypothesis Hp : 1 <= p.
  Hypothesis HM : manifold cells.
  Hypothesis HD : describes cells M.
  Let N := length cells.
  Let ok (x : nat * nat) : Prop := fst x <= p /\ snd x <= p /\ mid p (fst x) && mid p (snd x) = false.
  Lemma mid_0 : mid p 0 = false.
  Proof. reflexivity. Qed.
  Lemma mid_p : mid p p = false.
  Proof. apply Bool.not_true_iff_false. rewrite mid_iff. lia. Qed.
  Lemma epos_okq m k : m < 3 -> k < p - 1 -> fst (epos p m k) <= p /\ snd (epos p m k) <= p /\ mid p (fst (epos p m k)) && mid p (snd (epos p m k)) = false.
  Proof. intros Hm Hk. destruct (epos_ok p m k Hm Hk) as (A & B). split; [exact A|]. split; [exact B|]. three m; cbn [epos fst snd]; rewrite ?mid_0, ?mid_p, ?andb_false_r; reflexivity. Qed.
  Let loc (c : nat) (x : nat * nat) : loc0 := where0 p cells c (fst x) (snd x).
  Definition dn0 (done : list arr2) (c : nat) (x : nat * nat) : Z := nth c done ones2 (fst x) (snd x).
  Definition PT (seen : list loc0) (t : nat -> Z) : Prop :=
    forall v, (t v = (-1)%Z /\ ~ In (LV v) seen) \/ at_ seen (t v) (LV v).
  Definition Inv0 (c : nat) (seen : list loc0) (done : list arr2) (P : nat * nat -> Prop) (st : nstate) : Prop :=
    inv loc0 (nat * nat) loc ok c seen (cur st) (dn0 done) P (fun x => arr st (fst x) (snd x)) /\ PT seen (pn st) /\ length done = c.
  Lemma PT_app seen new t : PT seen t -> (forall v, ~ In (LV v) new) -> PT (seen ++ new) t.
  Proof.
    intros H Hn v. destruct (H v) as [[E Hv]|Hv]; [left|right; apply at_app; exact Hv].
    split; [exact E|]. rewrite in_app_iff. intros [Q|Q]; [auto|exact (Hn v Q)].
  Qed.
  Lemma cell_distinct c : c < N -> distinct (cl cells c).
  Proof. apply HM. Qed.
  Lemma ends_ne c m : c < N -> m < 3 -> fst (ends (cl cells c) m) <> snd (ends (cl cells c) m).
  Proof. intros Hc Hm. destruct (cell_distinct c Hc) as (D1 & D2 & D3). three m; cbn; auto. Qed.
  Definition sel (m : nat) (x : nat * nat) : Prop := ok x /\ sel0 p m (fst x) (snd x) = true.
  Lemma ends_inj c m n : c < N -> m < 3 -> n < 3 ->
    ends (cl cells c) n = ends (cl cells c) m \/ ends (cl cells c) n = swap (ends (cl cells c) m) -> n = m.
  Proof.
    intros Hc Hm Hn. destruct (cell_distinct c Hc) as (D1 & D2 & D3).
    three m; three n; unfold swap; cbn [ends fst snd]; intros [E|E]; try reflexivity; inversion E; congruence.
  Qed.
  (* nothing on the line of edge m has been seen *)
  Lemma edge_fresh c m seen cu done P val : c < N -> m < 3 ->
    inv loc0 (nat * nat) loc ok c seen cu done P val ->
    (forall x, P x -> sel0 p m (fst x) (snd x) = false) ->
    (match side_at M c m with SB _ => True | SI other _ _ => c < other end) ->
    forall k, ~ In (on_line p (fst (ends (cl cells c) m)) (snd (ends (cl cells c) m)) k) seen.
  Proof.
    intros Hc Hm HI HP HS k Hin.
    destruct (i_src _ _ _ _ _ _ _ _ _ _ HI _ Hin) as [(c' & x & Hc' & Hx & E)|(x & Hx & E)].
    - symmetry in E. unfold loc in E. assert (c' < N) as Hc'N by lia.
      apply where0_line in E; [|apply cell_distinct; lia|apply Hx|apply Hx|apply ends_ne; assumption].
      destruct E as (n & Hn & _ & _ & E).
      assert (SL : same_line cells c m c' n).
      { unfold same_line. rewrite (surjective_pairing (ends (cl cells c) m)). unfold swap.
        destruct E as [E|E]; rewrite E; cbn [fst snd]; auto. }
      destruct HD as [_ HD']. specialize (HD' c m Hc Hm). destruct (side_at M c m) as [b|other s n'] eqn:Es.
      + apply (HD' c' n); [exact Hc'N|exact Hn|lia|exact SL].
      + destruct HD' as (Ho & Hn' & Hne & F).
        assert (same_line cells c m other n') as SL' by (unfold same_line; destruct s; auto).
        assert (c' = other); [|lia]. destruct HM as [_ HM2]. apply (HM2 c m c' n other n'); try assumption; lia.
    - pose proof (i_ok _ _ _ _ _ _ _ _ _ _ HI x Hx) as Hxo. symmetry in E. unfold loc in E.
      apply where0_line in E; [|apply cell_distinct; exact Hc|apply Hxo|apply Hxo|apply ends_ne; assumption].
      destruct E as (n & Hn & S & _ & E).
      assert (n = m) as ->.
      { apply (ends_inj c m n Hc Hm Hn). unfold swap. rewrite <- (surjective_pairing (ends (cl cells c) m)) in E. exact E. }
      rewrite (HP x Hx) in S. discriminate.
  Qed.
  Lemma step_edge c m seen done P st : c < N -> m < 3 -> Inv0 c seen done P st ->
    (forall x, P x -> sel0 p m (fst x) (snd x) = false) ->
    exists st' seen', num_edge0 p M done c m st = Some st' /\ Inv0 c seen' done (fun x => P x \/ sel m x) st'.
  Proof.
    intros Hc Hm (HI & HT & HL) HP. unfold num_edge0.
    destruct (Nat.ltb_spec 1 p) as [Hp1|Hp1].
    2: { exists st, seen. split; [reflexivity|]. split; [|split; assumption].
         revert HI. apply inv_ext. intros x. split; [auto|]. intros [H|[_ H]]; [exact H|exfalso].
         destruct x as [i j]. apply sel0_epos in H; [|exact Hm]. lia. }
    set (e := ends (cl cells c) m). set (new := map (fun k => on_line p (fst e) (snd e) (k + 1)) (seq 0 (p - 1))).
    assert (He : fst e <> snd e) by (apply ends_ne; assumption).
    assert (Hval : forall (f : nat -> nat -> Z) x, P x -> put (arr st) (sel0 p m) f (fst x) (snd x) = arr st (fst x) (snd x)).
    { intros f x Hx. unfold put. rewrite (HP x Hx). reflexivity. }
    assert (Hnew : forall x, sel m x -> along0 m (fst x) (snd x) < p - 1 /\
       nth_error new (along0 m (fst x) (snd x)) = Some (loc c x)).
    { intros [i j] [Hx S]. cbn [fst snd] in *. destruct (sel0_epos p m i j Hm S) as [Ha Ep]. split; [exact Ha|].
      unfold new. rewrite nth_error_map, (nth_error_nth' _ 0) by (rewrite seq_length; exact Ha).
      rewrite seq_nth by exact Ha. cbn [option_map Nat.add]. f_equal. unfold loc. cbn [fst snd].
      unfold e. rewrite <- (where0_epos p cells c m (along0 m i j) Hm Ha), <- Ep. reflexivity. }
    assert (fresh : (match side_at M c m with SB _ => True | SI other _ _ => c < other end) ->
      exists seen', Inv0 c seen' done (fun x => P x \/ sel m x)
        (mkN (cur st + (p - 1)) (pn st) (put (arr st) (sel0 p m) (fun i j => znth (arange (cur st) (p - 1)) (along0 m i j))))).
    { intros HS. exists (seen ++ new).
      assert (Hfr : forall l, In l new -> ~ In l seen).
      { intros l Hl. unfold new in Hl. apply in_map_iff in Hl. destruct Hl as (k & <- & _).
        apply (edge_fresh c m seen _ _ _ _ Hc Hm HI HP HS). }
      split; [|split].
      - cbn [cur arr]. replace (p - 1) with (length new) at 1 by (unfold new; rewrite map_length, seq_length; reflexivity).
        apply (inv_fresh _ _ _ _ _ _ _ _ P (sel m) _ _ new HI); [|exact Hfr| | |].
        + unfold new. clear - He. assert (G : forall s n, s + n <= p - 1 -> NoDup (map (fun k => on_line p (fst e) (snd e) (k + 1)) (seq s n))).
          { intros s n. revert s. induction n as [|n IH]; intros s Hs; cbn; [constructor|]. constructor; [|apply IH; lia].
            intros Hin. apply in_map_iff in Hin. destruct Hin as (k & E & Hk). apply in_seq in Hk.
            apply on_line_inj in E; [|exact He|exact He]. destruct E as [(_ & _ & E)|[E _]]; [|auto].
            assert (k + 1 = s + 1) by (apply E; lia). lia. }
          apply G. lia.
        + intros x Hx. split; [apply Hx|]. destruct (Hnew x Hx) as [Ha Hn]. exists (along0 m (fst x) (snd x)). split; [exact Hn|].
          unfold put. destruct Hx as [_ S]. rewrite S. apply znth_arange. exact Ha.
        + intros l Hl. unfold new in Hl. apply in_map_iff in Hl. destruct Hl as (k & <- & Hk). apply in_seq in Hk.
          exists (epos p m k). split; [split; [apply epos_okq; lia|apply epos_sel0; lia]|]. unfold loc, e.
          rewrite where0_epos by lia. reflexivity.
        + intros x Hx. apply Hval. exact Hx.
      - apply PT_app; [exact HT|]. intros v Hv. unfold new in Hv. apply in_map_iff in Hv. destruct Hv as (k & E & _).
        destruct (on_line_LE p (fst e) (snd e) (k + 1)) as (x & y & z & EL). congruence.
      - exact HL. }
    destruct (side_at M c m) as [b|other s n] eqn:Es.
    - destruct (fresh I) as (seen' & G). eexists _, seen'. split; [reflexivity|exact G].
    - destruct HD as [_ HD']. specialize (HD' c m Hc Hm). rewrite Es in HD'. destruct HD' as (Ho & Hn & Hne & F).
      destruct (Nat.ltb_spec c other) as [L|L].
      + destruct (fresh L) as (seen' & G). eexists _, seen'. split; [reflexivity|exact G].
      + destruct (Nat.ltb_spec other c) as [L'|L']; [|lia]. eexists _, seen. split; [reflexivity|].
        split; [|split; [exact HT|exact HL]]. cbn [cur arr].
        apply (inv_known _ _ _ _ _ _ _ _ P (sel m) _ _ HI).
        * intros x Hx. split; [apply Hx|]. destruct (Hnew x Hx) as [Ha _]. destruct Hx as [Hx S]. unfold put. rewrite S.
          set (k := along0 m (fst x) (snd x)) in *. rewrite find0_epos.
          assert (El : loc c x = on_line p (fst e) (snd e) (k + 1)).
          { destruct (sel0_epos p m (fst x) (snd x) Hm S) as [_ Ep]. unfold loc, e.
            rewrite <- (where0_epos p cells c m k Hm Ha). unfold k. rewrite <- Ep. reflexivity. }
          rewrite El. fold e in F.
          assert (A : forall k', k' < p - 1 -> at_ seen (nth other done ones2 (fst (epos p n k')) (snd (epos p n k')))
             (on_line p (fst (ends (cl cells other) n)) (snd (ends (cl cells other) n)) (k' + 1))).
          { intros k' Hk'. rewrite <- (where0_epos p cells other n k' Hn Hk').
            apply (i_done _ _ _ _ _ _ _ _ _ _ HI other (epos p n k') L'). apply epos_okq; assumption. }
          destruct s; cbn [flip].
          -- rewrite (znth_map (fun k => nth other done ones2 (fst (epos p n k)) (snd (epos p n k)))) by exact Ha.
             rewrite F. apply A. exact Ha.
          -- rewrite (znth_rev (fun k => nth other done ones2 (fst (epos p n k)) (snd (epos p n k)))) by exact Ha.
             rewrite F. unfold swap. cbn [fst snd].
             rewrite <- (on_line_swap p _ _ (k + 1)).
             ++ replace (p - (k + 1)) with (p - 1 - 1 - k + 1) by lia. apply A. lia.
             ++ apply not_eq_sym. apply ends_ne; assumption.
             ++ lia.
        * intros x Hx. apply Hval. exact Hx.
  Qed.
  Lemma step_vertex c v s seen done P st : c < N -> Inv0 c seen done P st ->
    (exists x, ok x /\ s (fst x) (snd x) = true) ->
    (forall x, ok x -> s (fst x) (snd x) = true -> loc c x = LV v) ->
    (forall x, P x -> s (fst x) (snd x) = false) ->
    exists seen', Inv0 c seen' done (fun x => P x \/ (ok x /\ s (fst x) (snd x) = true)) (num_vertex v s st).
  Proof.
    intros Hc (HI & HT & HL) (x0 & Hx0 & Hs0) HV HP. unfold num_vertex. destruct (pn st v =? -1)%Z eqn:B.
    - apply Z.eqb_eq in B. destruct (HT v) as [[_ Hv]|(n & E & _)]; [|lia].
      exists (seen ++ [LV v]). split; [|split].
      + cbn [cur arr]. apply (inv_fresh _ _ _ _ _ _ _ _ P (fun x => ok x /\ s (fst x) (snd x) = true) _ _ [LV v] HI).
        * constructor; [intros []|constructor].
        * intros l [<-|[]]. exact Hv.
        * intros x [Hx S]. split; [exact Hx|]. exists 0. split; [cbn; rewrite (HV x Hx S); reflexivity|].
          unfold put. rewrite S, Nat.add_0_r. reflexivity.
        * intros l [<-|[]]. exists x0. split; [auto|]. symmetry. apply HV; assumption.
        * intros x Hx. unfold put. rewrite (HP x Hx). reflexivity.
      + cbn [pn]. intros w. destruct (Nat.eqb_spec w v) as [->|Ne].
        * right. replace (cur st) with (length seen + 0) by (rewrite (i_cur _ _ _ _ _ _ _ _ _ _ HI); lia). apply at_new. reflexivity.
        * destruct (HT w) as [[E Hw]|Hw]; [left|right; apply at_app; exact Hw]. split; [exact E|].
          rewrite in_app_iff. intros [Q|[Q|[]]]; [auto|]. congruence.
      + exact HL.
    - destruct (HT v) as [[E _]|Hv]; [lia|]. exists seen. split; [|split; [exact HT|exact HL]]. cbn [cur arr].
      apply (inv_known _ _ _ _ _ _ _ _ P (fun x => ok x /\ s (fst x) (snd x) = true) _ _ HI).
      + intros x [Hx S]. split; [exact Hx|]. unfold put. rewrite S, (HV x Hx S). exact Hv.
      + intros x Hx. unfold put. rewrite (HP x Hx). reflexivity.
  Qed.
  Lemma sel_false m i j : m < 3 -> ~ (sel0 p m i j = true) -> sel0 p m i j = false.
  Proof. intros _ H. apply Bool.not_true_iff_false. exact H. Qed.
  Lemma elementq_ok c seen done cu t : c < N -> 
    Inv0 c seen done (fun _ => False) (mkN cu t ones2) ->
    exists st seen', num_elementq p cells M done c cu t = Some st /\ Inv0 (S c) seen' (done ++ [arr st]) (fun _ => False) (mkN (cur st) (pn st) ones2).
  Proof.
    intros Hc H0. unfold num_elementq. change (cell_at cells c) with (cl cells c).
    pose proof (cell_distinct c Hc) as (D1 & D2 & D3).
    destruct (cl cells c) as [[v0 v1] v2] eqn:Ec. cbn [corner] in D1, D2, D3.
    destruct (step_vertex c v0 (fun _ j => j =? 0) seen done (fun _ => False) _ Hc H0) as (s1 & H1).
    { exists (0, 0). split; [unfold ok; cbn [fst snd]; rewrite ?mid_0, ?mid_p; repeat split; lia|reflexivity]. }
    { intros [i j] _ S. cbn [fst snd] in S. unfold loc, where0. cbn [fst snd]. rewrite S, Ec. reflexivity. }
    { intros x []. }
    cbv zeta. set (st1 := num_vertex v0 (fun _ j => j =? 0) (mkN cu t ones2)) in *.
    destruct (step_edge c 1 s1 done _ st1 Hc ltac:(lia) H1) as (st2 & s2 & E2 & H2).
    { intros [i j] [[]|[_ S]]. cbn [fst snd] in *. apply Nat.eqb_eq in S. subst j. cbn. rewrite andb_false_r. reflexivity. }
    rewrite E2. cbn [bind].
    destruct (step_edge c 0 s2 done _ st2 Hc ltac:(lia) H2) as (st4 & s4 & E4 & H4).
    { intros [i j] [[[]|[_ S]]|[_ S]]; cbn [fst snd sel0] in *; apply Bool.not_true_iff_false;
      rewrite ?andb_true_iff, ?mid_iff, ?Nat.eqb_eq in *; lia. }
    rewrite E4. cbn [bind].
    destruct (step_vertex c v2 (fun i j => (i =? 0) && (j =? p)) s4 done _ st4 Hc H4) as (s5 & H5).
    { exists (0, p). split; [unfold ok; cbn [fst snd]; rewrite ?mid_0, ?mid_p; repeat split; lia|]. cbn. apply Nat.eqb_refl. }
    { intros [i j] _ S. cbn [fst snd] in S. rewrite andb_true_iff, !Nat.eqb_eq in S. destruct S as [-> ->].
      unfold loc, where0. cbn [fst snd]. rewrite Ec, Nat.eqb_refl. destruct (Nat.eqb_spec p 0); [lia|]. reflexivity. }
    { intros [i j] [[[[]|[_ S]]|[_ S]]|[_ S]]; cbn [fst snd sel0] in *; apply Bool.not_true_iff_false;
      rewrite ?andb_true_iff, ?mid_iff, ?Nat.eqb_eq in *; lia. }
    set (st5 := num_vertex v2 (fun i j => (i =? 0) && (j =? p)) st4) in *.
    destruct (step_edge c 2 s5 done _ st5 Hc ltac:(lia) H5) as (st6 & s6 & E6 & H6).
    { intros [i j] [[[[[]|[_ S]]|[_ S]]|[_ S]]|[_ S]]; cbn [fst snd sel0] in *; apply Bool.not_true_iff_false;
      rewrite ?andb_true_iff, ?mid_iff, ?Nat.eqb_eq in *; lia. }
    rewrite E6. cbn [bind].
    destruct (step_vertex c v1 (fun i j => (i =? p) && (j =? p)) s6 done _ st6 Hc H6) as (s7 & H7).
    { exists (p, p). split; [unfold ok; cbn [fst snd]; rewrite ?mid_0, ?mid_p; repeat split; lia|]. cbn. rewrite !Nat.eqb_refl. reflexivity. }
    { intros [i j] _ S. cbn [fst snd] in S. rewrite andb_true_iff, !Nat.eqb_eq in S. destruct S as [-> ->].
      unfold loc, where0. cbn [fst snd]. rewrite Ec, Nat.eqb_refl. destruct (Nat.eqb_spec p 0); [lia|]. reflexivity. }
    { intros [i j] [[[[[[]|[_ S]]|[_ S]]|[_ S]]|[_ S]]|[_ S]]; cbn [fst snd sel0] in *; apply Bool.not_true_iff_false;
      rewrite ?andb_true_iff, ?mid_iff, ?Nat.eqb_eq in *; lia. }
    eexists _, s7. split; [reflexivity|]. destruct H7 as (I7 & T7 & L7). split; [|split; [exact T7|rewrite app_length; cbn; lia]].
    cbn [cur arr pn].
    apply (inv_finish _ _ _ _ _ _ _ _ _ _ _ _ I7).
    - intros [i j] Hx. unfold sel. cbn [fst snd sel0]. pose proof Hx as (O1 & O2 & O3). cbn [fst snd] in O1, O2, O3. apply Bool.not_true_iff_false in O3. rewrite andb_true_iff, !mid_iff in O3.
      rewrite !andb_true_iff, !mid_iff, !Nat.eqb_eq.
      destruct (Nat.eq_dec j 0); [tauto|]. destruct (Nat.eq_dec j p); destruct (Nat.eq_dec i 0); destruct (Nat.eq_dec i p); try tauto;
      assert (1 <= j) by lia; assert (1 <= i \/ i = 0) by lia; assert (i < p \/ i = p) by lia; assert (j < p \/ j = p) by lia; intuition.
    - intros x _. unfold dn0. rewrite app_nth2 by lia. rewrite L7, Nat.sub_diag. reflexivity.
    - intros c' x Hc' _. unfold dn0. rewrite app_nth1 by lia. reflexivity.
  Qed.
  Lemma elementsq_ok n c seen done cu t : c + n <= N ->
    Inv0 c seen done (fun _ => False) (mkN cu t ones2) ->
    exists done' cu' seen' t', num_elementsq p cells M (seq c n) done cu t = Some (done', cu') /\
      Inv0 (c + n) seen' done' (fun _ => False) (mkN cu' t' ones2).
  Proof.
    revert c seen done cu t. induction n as [|n IH]; intros c seen done cu t Hn H.
    - exists done, cu, seen, t. split; [reflexivity|]. rewrite Nat.add_0_r. exact H.
    - cbn [seq num_elementsq]. destruct (elementq_ok c seen done cu t ltac:(lia) H) as (st & seen' & E & H').
      rewrite E. cbn [bind].
      destruct (IH (S c) seen' (done ++ [arr st]) (cur st) (pn st) ltac:(lia) H') as (done' & cu' & seen'' & t' & E' & H'').
      exists done', cu', seen'', t'. split; [exact E'|]. replace (c + S n) with (S c + n) by lia. exact H''.
  Qed.
  Lemma numq_ok : exists A n, num_elementsq p cells M (seq 0 (length cells)) [] 0 (fun _ => (-1)%Z) = Some (A, n) /\ length A = N /\
    (forall c x, c < N -> ok x -> (0 <= dn0 A c x < Z.of_nat n)%Z) /\
    (forall c x c' x', c < N -> c' < N -> ok x -> ok x' -> (dn0 A c x = dn0 A c' x' <-> loc c x = loc c' x')) /\
    (forall k, k < n -> exists c x, c < N /\ ok x /\ dn0 A c x = Z.of_nat k).
  Proof.
    destruct (elementsq_ok N 0 [] [] 0 (fun _ => (-1)%Z)) as (A & n & seen & t & E & (HI & _ & HL)).
    - lia.
    - split; [|split; [|reflexivity]].
      + constructor; [constructor|reflexivity| | | |].
        * intros; lia.
        * intros x [].
        * intros x [].
        * intros l [].
      + intros v. left. auto.
    - exists A, n. split; [exact E|]. split; [exact HL|]. cbn [Nat.add] in HI.
      exact (inv_final _ _ _ _ _ _ _ _ _ _ HI (fun x F => F)).
  Qed.
End NumQ.
