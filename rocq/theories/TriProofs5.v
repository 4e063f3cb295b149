From Coq Require Import List Arith ZArith Bool Lia.
From Verif Require Import Prelude TriModel TriSpec TriProofs TriProofs2 TriProofs4.
Import ListNotations.

(* ---------- 1-forms ---------- *)
Definition epos1 (p m k : nat) : tedge := match m with 0 => Dy p k | 1 => Dy 0 k | _ => Dx k p end.
Definition val1 (A : arr2 * arr2) (e : tedge) : Z := match e with Dy i j => fst A i j | Dx i j => snd A i (j - 1) end.
Definition sel1 (p m : nat) (e : tedge) : Prop := edge_ok p e /\ on_edge p m e.
Definition along1 (e : tedge) : nat := match e with Dy _ j => j | Dx i _ => i end.
Lemma find1_epos p A m s : m < 3 -> find1 p A m s = flip s (map (fun k => val1 A (epos1 p m k)) (seq 0 p)).
Proof. intros Hm. unfold find1. three m; reflexivity. Qed.
Lemma sel1_epos p m e : m < 3 -> sel1 p m e -> along1 e < p /\ e = epos1 p m (along1 e).
Proof.
  intros Hm [H S]. destruct e as [i j|i j]; cbn in H; three m; cbn in S |- *; try tauto; subst; split; try reflexivity; lia.
Qed.
Lemma epos1_sel p m k : 1 <= p -> m < 3 -> k < p -> sel1 p m (epos1 p m k).
Proof. intros Hp Hm Hk. three m; split; cbn; lia. Qed.
Lemma where1_epos p cells c m k : 1 <= p -> m < 3 -> k < p ->
  where1 p cells c (epos1 p m k) = on_seg p (fst (ends (cl cells c) m)) (snd (ends (cl cells c) m)) k.
Proof.
  intros Hp Hm Hk. unfold where1. three m; cbn [epos1 ends fst snd]; rewrite ?Nat.eqb_refl; try reflexivity.
  destruct (Nat.eqb_spec p 0); [lia|]. reflexivity.
Qed.
Lemma on_seg_swap p a b k : a <> b -> k < p -> on_seg p b a (p - 1 - k) = on_seg p a b k.
Proof. intros Hab Hk. unfold on_seg. destruct (Nat.ltb_spec a b), (Nat.ltb_spec b a); try lia; f_equal; lia. Qed.
Lemma on_seg_inj p a b k a' b' k' : a <> b -> a' <> b' -> on_seg p a b k = on_seg p a' b' k' ->
  (a = a' /\ b = b' /\ (k < p -> k' < p -> k = k')) \/ (a = b' /\ b = a').
Proof.
  intros H1 H2 H. unfold on_seg in H.
  destruct (Nat.ltb_spec a b), (Nat.ltb_spec a' b'); injection H as E1 E2 E3; try (left; lia); right; lia.
Qed.
Lemma on_seg_SE p a b k : exists x y z, on_seg p a b k = SE x y z.
Proof. unfold on_seg. destruct (a <? b); eauto. Qed.
Lemma where1_cases p cells c e : 1 <= p -> edge_ok p e ->
  (exists n, n < 3 /\ sel1 p n e) \/ (where1 p cells c e = SIn c e /\ forall n, n < 3 -> ~ on_edge p n e).
Proof.
  intros Hp H. destruct e as [i j|i j]; cbn in H; unfold where1.
  - destruct (Nat.eqb_spec j p) as [E|E].
    + left. exists 2. split; [lia|]. split; cbn; [lia|exact E].
    + right. split; [reflexivity|]. intros n Hn. three n; cbn; auto.
  - destruct (Nat.eqb_spec i 0) as [E|E].
    + left. exists 1. split; [lia|]. split; cbn; [lia|exact E].
    + destruct (Nat.eqb_spec i p) as [E'|E'].
      * left. exists 0. split; [lia|]. split; cbn; [lia|exact E'].
      * right. split; [reflexivity|]. intros n Hn. three n; cbn; auto.
Qed.
Section Num1.
  Variables (o : orient) (p : nat) (cells : list tri) (M : smap).
  Hypothesis Hp : 1 <= p.
  Hypothesis HM : manifold cells.
  Hypothesis HD : describes cells M.
  Let N := length cells.
  Let ok := edge_ok p.
  Let loc := where1 p cells.
  Definition dn1 (done : list (arr2 * arr2)) (c : nat) (e : tedge) : Z := val1 (nth c done (ones2, ones2)) e.
  Definition vst (st : nstate1) (e : tedge) : Z := val1 (ady st, adx st) e.
  Definition Inv1 (c : nat) (seen : list loc1) (done : list (arr2 * arr2)) (P : tedge -> Prop) (st : nstate1) : Prop :=
    inv loc1 tedge loc ok c seen (cur1 st) (dn1 done) P (vst st) /\ length done = c.
  Lemma ends_ne1 c m : c < N -> m < 3 -> fst (ends (cl cells c) m) <> snd (ends (cl cells c) m).
  Proof. exact (ends_ne p cells Hp HM c m). Qed.
  Lemma where1_line c e a b k : c < N -> ok e -> a <> b -> where1 p cells c e = on_seg p a b k ->
    exists n, n < 3 /\ sel1 p n e /\ (ends (cl cells c) n = (a, b) \/ ends (cl cells c) n = (b, a)).
  Proof.
    intros Hc He Hab E. destruct (where1_cases p cells c e Hp He) as [(n & Hn & S)|[E' _]].
    - exists n. split; [exact Hn|]. split; [exact S|]. destruct (sel1_epos p n e Hn S) as [Hk Ee].
      rewrite Ee, where1_epos in E by assumption. apply on_seg_inj in E; [|apply ends_ne1; assumption|exact Hab].
      rewrite (surjective_pairing (ends (cl cells c) n)). destruct E as [(-> & -> & _)|(-> & ->)]; auto.
    - destruct (on_seg_SE p a b k) as (x & y & z & EL). congruence.
  Qed.
  Lemma edge_fresh1 c m seen cu done P val : c < N -> m < 3 ->
    inv loc1 tedge loc ok c seen cu done P val ->
    (forall e, P e -> ~ on_edge p m e) ->
    (match side_at M c m with SB _ => True | SI other _ _ => c < other end) ->
    forall k, ~ In (on_seg p (fst (ends (cl cells c) m)) (snd (ends (cl cells c) m)) k) seen.
  Proof.
    intros Hc Hm HI HP HS k Hin.
    destruct (i_src _ _ _ _ _ _ _ _ _ _ HI _ Hin) as [(c' & x & Hc' & Hx & E)|(x & Hx & E)].
    - symmetry in E. unfold loc in E. assert (c' < N) as Hc'N by lia.
      apply where1_line in E; [|exact Hc'N|exact Hx|apply ends_ne1; assumption].
      destruct E as (n & Hn & _ & E).
      assert (SL : same_line cells c m c' n).
      { unfold same_line. rewrite (surjective_pairing (ends (cl cells c) m)). unfold swap.
        destruct E as [E|E]; rewrite E; cbn [fst snd]; auto. }
      destruct HD as [_ HD']. specialize (HD' c m Hc Hm). destruct (side_at M c m) as [b|other s n'] eqn:Es.
      + apply (HD' c' n); [exact Hc'N|exact Hn|lia|exact SL].
      + destruct HD' as (Ho & Hn' & Hne & F).
        assert (same_line cells c m other n') as SL' by (unfold same_line; destruct s; auto).
        assert (c' = other); [|lia]. destruct HM as [_ HM2]. apply (HM2 c m c' n other n'); try assumption; lia.
    - pose proof (i_ok _ _ _ _ _ _ _ _ _ _ HI x Hx) as Hxo. symmetry in E. unfold loc in E.
      apply where1_line in E; [|exact Hc|exact Hxo|apply ends_ne1; assumption].
      destruct E as (n & Hn & [_ S] & E).
      assert (n = m) as ->.
      { apply (ends_inj p cells Hp HM c m n Hc Hm Hn). unfold swap. rewrite <- (surjective_pairing (ends (cl cells c) m)) in E. exact E. }
      exact (HP x Hx S).
  Qed.
  Lemma put_edge1_at m l n st e : m < 3 -> ok e -> on_edge p m e -> vst (put_edge1 p m l n st) e = znth l (along1 e).
  Proof.
    intros Hm He S. destruct e as [i j|i j]; cbn in He; three m; cbn in S; try tauto; subst; unfold vst, put_edge1, put; cbn [val1 fst snd ady adx along1].
    - replace ((i <? p) && (p - 1 =? p - 1)) with true; [reflexivity|]. symmetry. apply andb_true_intro. rewrite Nat.ltb_lt, Nat.eqb_refl. lia.
    - replace ((p =? p) && (j <? p)) with true; [reflexivity|]. symmetry. apply andb_true_intro. rewrite Nat.ltb_lt, Nat.eqb_refl. lia.
    - replace ((0 =? 0) && (j <? p)) with true; [reflexivity|]. symmetry. apply andb_true_intro. rewrite Nat.ltb_lt. split; [reflexivity|lia].
  Qed.
  Lemma put_edge1_off m l n st e : m < 3 -> ok e -> ~ on_edge p m e -> vst (put_edge1 p m l n st) e = vst st e.
  Proof.
    intros Hm He S. destruct e as [i j|i j]; cbn in He; three m; cbn in S; try tauto; unfold vst, put_edge1, put; cbn [val1 fst snd ady adx along1]; try reflexivity.
    - destruct (Nat.eqb_spec (j - 1) (p - 1)); [lia|]. rewrite andb_false_r. reflexivity.
    - destruct (Nat.eqb_spec i p); [lia|]. reflexivity.
    - destruct (Nat.eqb_spec i 0); [lia|]. reflexivity.
  Qed.
  Lemma put_edge1_cur m l n st : m < 3 -> cur1 (put_edge1 p m l n st) = n.
  Proof. intros Hm. three m; reflexivity. Qed.
  Lemma step_edge1 c m seen done P st : c < N -> m < 3 -> Inv1 c seen done P st ->
    (forall e, P e -> ~ on_edge p m e) ->
    exists st' seen', num_edge1 p M done c m st = Some st' /\ Inv1 c seen' done (fun e => P e \/ sel1 p m e) st'.
  Proof.
    intros Hc Hm (HI & HL) HP. unfold num_edge1.
    set (e := ends (cl cells c) m). set (new := map (fun k => on_seg p (fst e) (snd e) k) (seq 0 p)).
    assert (He : fst e <> snd e) by (apply ends_ne1; assumption).
    assert (Hval : forall l n x, P x -> vst (put_edge1 p m l n st) x = vst st x).
    { intros l n x Hx. apply put_edge1_off; [exact Hm|apply (i_ok _ _ _ _ _ _ _ _ _ _ HI x Hx)|apply HP; exact Hx]. }
    assert (Hnew : forall x, sel1 p m x -> along1 x < p /\ nth_error new (along1 x) = Some (loc c x)).
    { intros x Hx. destruct (sel1_epos p m x Hm Hx) as [Ha Ep]. split; [exact Ha|].
      unfold new. rewrite nth_error_map, (nth_error_nth' _ 0) by (rewrite seq_length; exact Ha).
      rewrite seq_nth by exact Ha. cbn [option_map Nat.add]. f_equal. unfold loc.
      unfold e. rewrite <- (where1_epos p cells c m (along1 x) Hp Hm Ha), <- Ep. reflexivity. }
    assert (fresh : (match side_at M c m with SB _ => True | SI other _ _ => c < other end) ->
      exists seen', Inv1 c seen' done (fun x => P x \/ sel1 p m x) (put_edge1 p m (arange (cur1 st) p) (cur1 st + p) st)).
    { intros HS. exists (seen ++ new).
      assert (Hfr : forall l, In l new -> ~ In l seen).
      { intros l Hl. unfold new in Hl. apply in_map_iff in Hl. destruct Hl as (k & <- & _).
        apply (edge_fresh1 c m seen _ _ _ _ Hc Hm HI HP HS). }
      split; [|exact HL]. rewrite put_edge1_cur by exact Hm.
      replace (cur1 st + p) with (cur1 st + length new) at 1 by (unfold new; rewrite map_length, seq_length; reflexivity).
      apply (inv_fresh _ _ _ _ _ _ _ _ P (sel1 p m) _ _ new HI); [|exact Hfr| | |].
      - unfold new. clear - He. assert (G : forall s n, s + n <= p -> NoDup (map (fun k => on_seg p (fst e) (snd e) k) (seq s n))).
        { intros s n. revert s. induction n as [|n IH]; intros s Hs; cbn; [constructor|]. constructor; [|apply IH; lia].
          intros Hin. apply in_map_iff in Hin. destruct Hin as (k & E & Hk). apply in_seq in Hk.
          apply on_seg_inj in E; [|exact He|exact He]. destruct E as [(_ & _ & E)|[E _]]; [|auto].
          assert (k = s) by (apply E; lia). lia. }
        apply G. lia.
      - intros x Hx. split; [apply Hx|]. destruct (Hnew x Hx) as [Ha Hn]. exists (along1 x). split; [exact Hn|].
        rewrite put_edge1_at by (try exact Hm; apply Hx). apply znth_arange. exact Ha.
      - intros l Hl. unfold new in Hl. apply in_map_iff in Hl. destruct Hl as (k & <- & Hk). apply in_seq in Hk.
        exists (epos1 p m k). split; [apply epos1_sel; lia|]. unfold loc, e. rewrite where1_epos by lia. reflexivity.
      - intros x Hx. apply Hval. exact Hx. }
    cbv zeta. destruct (side_at M c m) as [b|other s n] eqn:Es.
    - destruct (fresh I) as (seen' & G). eexists _, seen'. split; [reflexivity|exact G].
    - destruct HD as [_ HD']. specialize (HD' c m Hc Hm). rewrite Es in HD'. destruct HD' as (Ho & Hn & Hne & F).
      destruct (Nat.ltb_spec c other) as [L|L].
      + destruct (fresh L) as (seen' & G). eexists _, seen'. split; [reflexivity|exact G].
      + destruct (Nat.ltb_spec other c) as [L'|L']; [|lia]. eexists _, seen. split; [reflexivity|].
        split; [|exact HL]. rewrite put_edge1_cur by exact Hm.
        apply (inv_known _ _ _ _ _ _ _ _ P (sel1 p m) _ _ HI).
        * intros x Hx. split; [apply Hx|]. destruct (Hnew x Hx) as [Ha _]. rewrite put_edge1_at by (try exact Hm; apply Hx).
          set (k := along1 x) in *. rewrite find1_epos by exact Hn.
          assert (El : loc c x = on_seg p (fst e) (snd e) k).
          { destruct (sel1_epos p m x Hm Hx) as [_ Ep]. unfold loc, e.
            rewrite <- (where1_epos p cells c m k Hp Hm Ha). unfold k. rewrite <- Ep. reflexivity. }
          rewrite El. fold e in F.
          assert (A : forall k', k' < p -> at_ seen (val1 (nth other done (ones2, ones2)) (epos1 p n k'))
             (on_seg p (fst (ends (cl cells other) n)) (snd (ends (cl cells other) n)) k')).
          { intros k' Hk'. rewrite <- (where1_epos p cells other n k' Hp Hn Hk').
            apply (i_done _ _ _ _ _ _ _ _ _ _ HI other (epos1 p n k') L'). apply epos1_sel; assumption. }
          destruct s; cbn [flip].
          -- rewrite (znth_map (fun k => val1 (nth other done (ones2, ones2)) (epos1 p n k))) by exact Ha.
             rewrite F. apply A. exact Ha.
          -- rewrite (znth_rev (fun k => val1 (nth other done (ones2, ones2)) (epos1 p n k))) by exact Ha.
             rewrite F. unfold swap. cbn [fst snd].
             rewrite <- (on_seg_swap p _ _ k).
             ++ apply A. lia.
             ++ apply not_eq_sym. apply ends_ne1; assumption.
             ++ exact Ha.
        * intros x Hx. apply Hval. exact Hx.
  Qed.
  Lemma where1_SIn c e c' e' : where1 p cells c e = SIn c' e' -> c' = c /\ e' = e /\ forall n, n < 3 -> ~ on_edge p n e.
  Proof.
    unfold where1. destruct e as [i j|i j].
    - destruct (on_seg_SE p (corner (cl cells c) 2) (corner (cl cells c) 1) i) as (x1 & y1 & z1 & ->).
      destruct (Nat.eqb_spec j p); [discriminate|]. intros H. injection H as -> <-. split; [reflexivity|]. split; [reflexivity|].
      intros k Hk. three k; cbn; auto.
    - destruct (on_seg_SE p (corner (cl cells c) 0) (corner (cl cells c) 2) j) as (x1 & y1 & z1 & ->).
      destruct (on_seg_SE p (corner (cl cells c) 0) (corner (cl cells c) 1) j) as (x2 & y2 & z2 & ->).
      destruct (Nat.eqb_spec i 0); [discriminate|]. destruct (Nat.eqb_spec i p); [discriminate|].
      intros H. injection H as -> <-. split; [reflexivity|]. split; [reflexivity|]. intros k Hk. three k; cbn; auto.
  Qed.
  Definition in_dy (e : tedge) : Prop := match e with Dy i j => 1 <= i < p /\ j < p | Dx _ _ => False end.
  Definition in_dx (e : tedge) : Prop := match e with Dx i j => i < p /\ 1 <= j < p | Dy _ _ => False end.
  (* an inner block, numbered column by column *)
  Lemma step_block c seen done (P Q : tedge -> Prop) st st' a b (mkp : nat -> nat -> tedge) (ix : tedge -> nat * nat) :
    Inv1 c seen done P st ->
    cur1 st' = cur1 st + b * a ->
    (forall e, Q e -> edge_ok p e /\ (forall n, n < 3 -> ~ on_edge p n e) /\
        fst (ix e) < a /\ snd (ix e) < b /\ mkp (fst (ix e)) (snd (ix e)) = e /\
        vst st' e = Z.of_nat (cur1 st + (fst (ix e) + snd (ix e) * a))) ->
    (forall i j, i < a -> j < b -> Q (mkp i j)) ->
    (forall i j i' j', mkp i j = mkp i' j' -> i = i' /\ j = j') ->
    (forall e, P e -> ~ Q e) -> (forall e, P e -> vst st' e = vst st e) ->
    exists seen', Inv1 c seen' done (fun e => P e \/ Q e) st'.
  Proof.
    intros (HI & HL) Hcur HQ HB Hinj HPQ HP. destruct (grid_facts a b) as (G1 & G2 & G3).
    set (new := map (fun ij => SIn c (mkp (fst ij) (snd ij))) (grid a b)).
    assert (W : forall e, Q e -> where1 p cells c e = SIn c e).
    { intros e He. destruct (HQ e He) as (E1 & E2 & _). destruct (where1_cases p cells c e Hp E1) as [(n & Hn & [_ S])|[E _]]; [|exact E].
      destruct (E2 n Hn S). }
    exists (seen ++ new). split; [|exact HL]. rewrite Hcur.
    replace (b * a) with (length new) by (unfold new; rewrite map_length; exact G1).
    apply (inv_fresh _ _ _ _ _ _ _ _ P Q _ _ new HI).
    - unfold new. apply FinFun.Injective_map_NoDup; [|exact G2]. intros [x y] [x' y'] E. cbn in E. injection E as E.
      destruct (Hinj _ _ _ _ E) as [-> ->]. reflexivity.
    - intros l Hl Hs. unfold new in Hl. apply in_map_iff in Hl. destruct Hl as ([i j] & <- & Hij). cbn [fst snd] in Hs. apply in_grid in Hij.
      destruct (i_src _ _ _ _ _ _ _ _ _ _ HI _ Hs) as [(c' & x & Hc' & Hx & E)|(x & Hx & E)]; symmetry in E; apply where1_SIn in E.
      + lia.
      + destruct E as (_ & E & _). apply (HPQ x Hx). rewrite <- E. apply HB; lia.
    - intros e He. destruct (HQ e He) as (E1 & E2 & E3 & E4 & E5 & E6). split; [exact E1|].
      exists (fst (ix e) + snd (ix e) * a). split; [|exact E6]. unfold new. rewrite nth_error_map, G3 by assumption.
      cbn [option_map fst snd]. rewrite E5. unfold loc. rewrite (W e He). reflexivity.
    - intros l Hl. unfold new in Hl. apply in_map_iff in Hl. destruct Hl as ([i j] & <- & Hij). apply in_grid in Hij. cbn [fst snd].
      exists (mkp i j). split; [apply HB; lia|]. unfold loc. rewrite W; [reflexivity|]. apply HB; lia.
    - exact HP.
  Qed.
  Lemma step_dy c seen done P st : Inv1 c seen done P st -> (forall e, P e -> ~ in_dy e) ->
    exists seen', Inv1 c seen' done (fun e => P e \/ in_dy e) (num_dy p st).
  Proof.
    intros H HP. unfold num_dy. destruct (Nat.ltb_spec 1 p) as [Hp1|Hp1].
    2: { exists seen. destruct H as [HI HL]. split; [|exact HL]. revert HI. apply inv_ext. intros [i j|i j]; cbn; split; auto; intros [Q|Q]; auto; lia. }
    apply (step_block c seen done P in_dy st _ (p - 1) p (fun i j => Dy (i + 1) j)
             (fun e => match e with Dy i j => (i - 1, j) | Dx _ _ => (0, 0) end) H).
    - reflexivity.
    - intros [i j|i j] He; cbn in He; [tauto|]. split; [cbn; lia|]. split; [intros n Hn; three n; cbn; lia|]. cbn [fst snd].
      split; [lia|]. split; [lia|]. split; [f_equal; lia|]. unfold vst, put. cbn [val1 fst ady].
      replace (mid p i && (j <? p)) with true by (symmetry; apply andb_true_intro; rewrite mid_iff, Nat.ltb_lt; lia).
      unfold aF. lia.
    - intros i j Hi Hj. cbn. lia.
    - intros i j i' j' E. injection E as E1 E2. lia.
    - exact HP.
    - intros [i j|i j] He; [reflexivity|]. pose proof (i_ok _ _ _ _ _ _ _ _ _ _ (proj1 H) _ He) as O. cbn in O.
      specialize (HP _ He). cbn in HP. unfold vst, put. cbn [val1 fst ady].
      replace (mid p i && (j <? p)) with false; [reflexivity|]. symmetry. apply Bool.not_true_iff_false.
      rewrite andb_true_iff, mid_iff, Nat.ltb_lt. lia.
  Qed.
  Lemma step_dx c seen done P st : Inv1 c seen done P st -> (forall e, P e -> ~ in_dx e) ->
    exists seen', Inv1 c seen' done (fun e => P e \/ in_dx e) (num_dx p st).
  Proof.
    intros H HP. unfold num_dx. destruct (Nat.ltb_spec 1 p) as [Hp1|Hp1].
    2: { exists seen. destruct H as [HI HL]. split; [|exact HL]. revert HI. apply inv_ext. intros [i j|i j]; cbn; split; auto; intros [Q|Q]; auto; lia. }
    apply (step_block c seen done P in_dx st _ p (p - 1) (fun i j => Dx i (j + 1))
             (fun e => match e with Dx i j => (i, j - 1) | Dy _ _ => (0, 0) end) H).
    - cbn [cur1]. lia.
    - intros [i j|i j] He; cbn in He; [|tauto]. split; [cbn; lia|]. split; [intros n Hn; three n; cbn; lia|]. cbn [fst snd].
      split; [lia|]. split; [lia|]. split; [f_equal; lia|]. unfold vst, put. cbn [val1 snd adx].
      replace ((i <? p) && (j - 1 <? p - 1)) with true by (symmetry; apply andb_true_intro; rewrite !Nat.ltb_lt; lia).
      unfold aF. lia.
    - intros i j Hi Hj. cbn. lia.
    - intros i j i' j' E. injection E as E1 E2. lia.
    - exact HP.
    - intros [i j|i j] He; [|reflexivity]. pose proof (i_ok _ _ _ _ _ _ _ _ _ _ (proj1 H) _ He) as O. cbn in O.
      specialize (HP _ He). cbn in HP. unfold vst, put. cbn [val1 snd adx].
      replace ((i <? p) && (j - 1 <? p - 1)) with false; [reflexivity|]. symmetry. apply Bool.not_true_iff_false.
      rewrite andb_true_iff, !Nat.ltb_lt. lia.
  Qed.
  Lemma element1_ok c seen done cu : c < N -> Inv1 c seen done (fun _ => False) (mkN1 cu ones2 ones2) ->
    exists st seen', num_element1 o p M done c cu = Some st /\
      Inv1 (S c) seen' (done ++ [(ady st, adx st)]) (fun _ => False) (mkN1 (cur1 st) ones2 ones2).
  Proof.
    intros Hc H0. unfold num_element1. cbv zeta.
    assert (fin : forall P st seen', Inv1 c seen' done P st -> (forall e, ok e -> P e) ->
       Inv1 (S c) seen' (done ++ [(ady st, adx st)]) (fun _ => False) (mkN1 (cur1 st) ones2 ones2)).
    { intros P st seen' [HI HL] HP. split; [|rewrite app_length; cbn; lia]. cbn [cur1].
      apply (inv_finish _ _ _ _ _ _ _ _ _ _ _ _ HI); [exact HP| |].
      - intros e _. unfold dn1. rewrite app_nth2 by lia. rewrite HL, Nat.sub_diag. reflexivity.
      - intros c' e Hc' _. unfold dn1. rewrite app_nth1 by lia. reflexivity. }
    destruct o.
    - destruct (step_edge1 c 1 seen done _ _ Hc ltac:(lia) H0 ltac:(tauto)) as (st1 & s1 & E1 & H1). rewrite E1. cbn [bind].
      destruct (step_dy c s1 done _ st1 H1) as (s2 & H2).
      { intros [i j|i j] [[]|[O S]]; cbn in S |- *; lia. }
      destruct (step_edge1 c 0 s2 done _ _ Hc ltac:(lia) H2) as (st3 & s3 & E3 & H3).
      { intros [i j|i j] [[[]|[O S]]|S]; cbn in S |- *; lia. }
      rewrite E3. cbn [bind].
      destruct (step_dx c s3 done _ st3 H3) as (s4 & H4).
      { intros [i j|i j] [[[[]|[O S]]|S]|[O S]]; cbn in S |- *; lia. }
      destruct (step_edge1 c 2 s4 done _ _ Hc ltac:(lia) H4) as (st5 & s5 & E5 & H5).
      { intros [i j|i j] [[[[[]|[O S]]|S]|[O S]]|S]; cbn in S |- *; lia. }
      rewrite E5. exists st5, s5. split; [reflexivity|]. apply (fin _ _ _ H5).
      intros [i j|i j] O; unfold sel1, in_dy, in_dx; cbn in O |- *; lia.
    - destruct (step_dx c seen done _ _ H0 ltac:(tauto)) as (s1 & H1).
      destruct (step_edge1 c 2 s1 done _ _ Hc ltac:(lia) H1) as (st2 & s2 & E2 & H2).
      { intros [i j|i j] [[]|S]; cbn in S |- *; lia. }
      rewrite E2. cbn [bind].
      destruct (step_edge1 c 1 s2 done _ _ Hc ltac:(lia) H2) as (st3 & s3 & E3 & H3).
      { intros [i j|i j] [[[]|S]|[O S]]; cbn in S |- *; lia. }
      rewrite E3. cbn [bind].
      destruct (step_dy c s3 done _ st3 H3) as (s4 & H4).
      { intros [i j|i j] [[[[]|S]|[O S]]|[O S]]; cbn in S |- *; lia. }
      destruct (step_edge1 c 0 s4 done _ _ Hc ltac:(lia) H4) as (st5 & s5 & E5 & H5).
      { intros [i j|i j] [[[[[]|S]|[O S]]|[O S]]|S]; cbn in S |- *; lia. }
      rewrite E5. exists st5, s5. split; [reflexivity|]. apply (fin _ _ _ H5).
      intros [i j|i j] O; unfold sel1, in_dy, in_dx; cbn in O |- *; lia.
  Qed.
  Lemma elements1_ok n c seen done cu : c + n <= N -> Inv1 c seen done (fun _ => False) (mkN1 cu ones2 ones2) ->
    exists done' cu' seen', num_elements1 o p M (seq c n) done cu = Some (done', cu') /\
      Inv1 (c + n) seen' done' (fun _ => False) (mkN1 cu' ones2 ones2).
  Proof.
    revert c seen done cu. induction n as [|n IH]; intros c seen done cu Hn H.
    - exists done, cu, seen. split; [reflexivity|]. rewrite Nat.add_0_r. exact H.
    - cbn [seq num_elements1]. destruct (element1_ok c seen done cu ltac:(lia) H) as (st & seen' & E & H').
      rewrite E. cbn [bind].
      destruct (IH (S c) seen' _ (cur1 st) ltac:(lia) H') as (done' & cu' & seen'' & E' & H'').
      exists done', cu', seen''. split; [exact E'|]. replace (c + S n) with (S c + n) by lia. exact H''.
  Qed.
  Lemma numbering1_ok : exists A n, numbering1 o p M = Some (A, n) /\ length A = N /\
    (forall c e, c < N -> edge_ok p e -> (0 <= val1 (nth c A (ones2, ones2)) e < Z.of_nat n)%Z) /\
    (forall c e c' e', c < N -> c' < N -> edge_ok p e -> edge_ok p e' ->
       (val1 (nth c A (ones2, ones2)) e = val1 (nth c' A (ones2, ones2)) e' <-> where1 p cells c e = where1 p cells c' e')) /\
    (forall k, k < n -> exists c e, c < N /\ edge_ok p e /\ val1 (nth c A (ones2, ones2)) e = Z.of_nat k).
  Proof.
    unfold numbering1. destruct HD as [-> _].
    destruct (elements1_ok N 0 [] [] 0) as (A & n & seen & E & (HI & HL)).
    - lia.
    - split; [|reflexivity]. constructor; [constructor|reflexivity| | | |].
      + intros; lia.
      + intros x [].
      + intros x [].
      + intros l [].
    - exists A, n. split; [exact E|]. split; [exact HL|]. cbn [Nat.add] in HI.
      destruct (inv_final _ _ _ _ _ _ _ _ _ _ HI (fun x F => F)) as (F1 & F2 & F3). split; [exact F1|]. split; [|exact F3].
      intros c e c' e' Hc Hc' He He'. apply F2; assumption.
  Qed.
End Num1.
