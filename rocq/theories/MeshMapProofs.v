(** Region map. *)
From Coq Require Import List Arith Bool Lia.
From Verif Require Import Prelude PreludeProofs SpaceModel SpaceProofs MeshModel MeshSpec MeshMapSpec MeshProofs MeshMapModel.
Import ListNotations.

Lemma mem_In x l : mem x l = true <-> In x l.
Proof.
  unfold mem. rewrite existsb_exists. split.
  - intros (y & H & E). apply Nat.eqb_eq in E. subst. exact H.
  - intros H. exists x. split; [exact H|apply Nat.eqb_refl].
Qed.
Lemma opp_index_ok i : i < 6 -> opp_index i = facing i /\ opp_index i < 6 /\ opp_index (opp_index i) = i.
Proof. intros H. do 6 (destruct i as [|i]; [cbn; repeat split; lia|]). lia. Qed.
Lemma attached_In corner nrs r i x : In x (attached_regions corner nrs r i) <->
  x < nrs /\ x <> r /\ exists ii, ii < 6 /\ corners_of corner r i = corners_of corner x ii.
Proof.
  unfold attached_regions. rewrite in_flat_map. split.
  - intros (r' & H1 & H2). apply in_seq in H1. destruct (Nat.eqb_spec r' r) as [->|N]; [contradiction|]. rewrite in_flat_map in H2. destruct H2 as (ii & H2 & H3).
    apply in_seq in H2. destruct (list_eq_dec Nat.eq_dec _ _) as [E|]; [|contradiction]. destruct H3 as [<-|[]]. split; [lia|]. split; [exact N|]. exists ii. split; [lia|exact E].
  - intros (H1 & H2 & ii & H3 & H4). exists x. split; [apply in_seq; lia|]. rewrite (proj2 (Nat.eqb_neq _ _) H2). rewrite in_flat_map. exists ii. split; [apply in_seq; lia|].
    rewrite H4. destruct (list_eq_dec Nat.eq_dec _ _) as [|N]; [now left|contradiction].
Qed.

Section RM.
  Context (corner : nat -> nat -> nat) (nrs : nat) (bnames : list nat) (bsides : list (nat * (nat * nat))).
  Context (HB : forall b, In b bnames -> nrs <= b) (HS : forall x, In x bsides -> In (fst x) bnames /\ snd (snd x) < 6).
  Notation at_side := (MeshMapSpec.at_side bsides).
  Definition L0 (r i : nat) : list nat := attached_regions corner nrs r i ++ at_side r i.
  Lemma set_slot_at m r i v r' i' : set_slot m r i v r' i' = if (r' =? r) && (i' =? i) then v else m r' i'.
  Proof. reflexivity. Qed.
  Lemma eqb2 r i r' i' : (r' =? r) && (i' =? i) = true <-> r' = r /\ i' = i.
  Proof. rewrite andb_true_iff, !Nat.eqb_eq. reflexivity. Qed.
  Lemma add_ok m0 : forall bs mm, fold_left (add_boundary nrs) bs (Some m0) = Some mm -> (forall r i, exists l, m0 r i = Names l) ->
    (forall x, In x bs -> fst (snd x) < nrs) /\
    forall r i l, m0 r i = Names l -> mm r i = Names (l ++ map fst (filter (fun x => (fst (snd x) =? r) && (snd (snd x) =? i)) bs)).
  Proof.
    intros bs. revert m0. induction bs as [|[b [r i]] bs IH]; intros m0 mm E H0; cbn [fold_left] in E.
    - injection E as <-. split; [intros x []|]. intros r i l E. cbn. rewrite app_nil_r. exact E.
    - cbn [add_boundary] in E. destruct (Nat.ltb_spec r nrs) as [Hr|Hr].
      + destruct (H0 r i) as (l0 & E0). rewrite E0 in E.
        destruct (IH (set_slot m0 r i (Names (l0 ++ [b]))) mm E) as (I1 & I2).
        { intros r' i'. rewrite set_slot_at. destruct ((r' =? r) && (i' =? i)); [eauto|apply H0]. }
        split; [intros x [<-|Hx]; [exact Hr|exact (I1 x Hx)]|].
        intros r' i' l El. cbn [filter fst snd map]. destruct ((r =? r') && (i =? i')) eqn:Q.
        * apply eqb2 in Q. destruct Q as (<- & <-). cbn [map fst]. rewrite (I2 r i (l0 ++ [b])).
          { rewrite <- app_assoc. f_equal. f_equal. congruence. }
          rewrite set_slot_at, !Nat.eqb_refl. reflexivity.
        * rewrite (I2 r' i' l); [reflexivity|]. rewrite set_slot_at. destruct ((r' =? r) && (i' =? i)) eqn:Q2; [|exact El].
          apply eqb2 in Q2. destruct Q2 as (-> & ->). rewrite !Nat.eqb_refl in Q. discriminate.
      + assert (N : forall l, fold_left (add_boundary nrs) l None = None) by (induction l as [|[? [? ?]] l IHl]; [reflexivity|exact IHl]). rewrite N in E. discriminate.
  Qed.
  Definition crack (l : list nat) (b : nat) : Prop := In b bnames /\ exists x, x < nrs /\ (l = [x; b] \/ l = [b; x]).
  Definition slot_ok (r i : nat) (s : slot) : Prop :=
    s = Names (L0 r i) \/ (exists b, (s = Names [b] \/ s = Name b) /\ crack (L0 r i) b) \/ exists n, s = Name n /\ L0 r i = [n].
  Definition inv (m : rmap) : Prop := forall r i, slot_ok r i (m r i).
  Lemma crack_two l r b : length l = 2 -> In r l -> In b l -> r < nrs -> In b bnames -> crack l b.
  Proof.
    intros L Hr Hb R B. assert (nrs <= b) by (apply HB; exact B). destruct l as [|x [|y [|]]]; try discriminate. split; [exact B|]. exists r. split; [exact R|].
    destruct Hr as [->|[->|[]]], Hb as [->|[->|[]]]; try lia; auto.
  Qed.
  Lemma inv_set m r i s : inv m -> slot_ok r i s -> inv (set_slot m r i s).
  Proof.
    intros H Hs r' i'. rewrite set_slot_at. destruct ((r' =? r) && (i' =? i)) eqn:Q; [|apply H]. apply eqb2 in Q. destruct Q as (-> & ->). exact Hs.
  Qed.
  Lemma check_ok m r i m' : inv m -> r < nrs -> check_side nrs bnames (Some m) (r, i) = Some m' -> inv m'.
  Proof.
    intros H Hr. unfold check_side. cbv zeta.
    assert (FIN : forall m1 m2, inv m1 -> (exists n, m1 r i = Names [n]) -> match m1 r i with
       | Names (n :: _) => if mem n bnames then if n <? nrs then None else Some (set_slot m1 r i (Name n)) else if n <? nrs then Some (set_slot m1 r i (Name n)) else None
       | _ => None end = Some m2 -> inv m2).
    { intros m1 m2 I1 (n & En) E2. rewrite En in E2.
      assert (G : slot_ok r i (Name n)).
      { destruct (I1 r i) as [G|[(b & [G|G] & C)|(x & G & _)]]; rewrite En in G; try discriminate.
        - right. right. exists n. split; [reflexivity|]. congruence.
        - right. left. exists b. split; [right; congruence|exact C]. }
      destruct (mem n bnames), (n <? nrs); try discriminate; injection E2 as <-; apply inv_set; assumption. }
    destruct (m r i) as [[|x [|y [|]]]|] eqn:E; try discriminate.
    - intros E'. apply (FIN m m' H); [eauto|]. rewrite E. exact E'.
    - set (rb := if x <? nrs then _ else _).
      destruct rb as [(r', b)|] eqn:Erb; [|discriminate]. assert (RB : r' < nrs /\ In b bnames /\ crack [x; y] b).
      { unfold rb in Erb. destruct (Nat.ltb_spec x nrs) as [X|X].
        - destruct (mem y bnames) eqn:Y; [|discriminate]. injection Erb as <- <-. apply mem_In in Y. split; [exact X|]. split; [exact Y|]. split; [exact Y|]. eauto.
        - destruct (mem x bnames) eqn:Y; [|discriminate]. destruct (Nat.ltb_spec y nrs) as [Z|Z]; [|discriminate]. injection Erb as <- <-. apply mem_In in Y. split; [exact Z|]. split; [exact Y|]. split; [exact Y|]. eauto. }
      clearbody rb. clear Erb. destruct RB as (R' & B & C). destruct (m r' (opp_index i)) as [l|] eqn:El; [|discriminate].
      destruct ((length l =? 2) && mem r l && mem b l) eqn:Q; [|discriminate]. apply andb_prop in Q. destruct Q as (Q & Q3). apply andb_prop in Q. destruct Q as (Q1 & Q2).
      apply Nat.eqb_eq in Q1. apply mem_In in Q2, Q3. destruct (r' <? r); [discriminate|]. apply FIN.
      + apply inv_set; [apply inv_set; [exact H|]|].
        * right. left. exists b. split; [now left|]. destruct (H r i) as [G|[(b' & [G|G] & _)|(n & G & _)]]; rewrite E in G; try discriminate. injection G as <-. exact C.
        * right. left. exists b. split; [now left|]. destruct (H r' (opp_index i)) as [G|[(b' & [G|G] & _)|(n & G & _)]]; rewrite El in G; try discriminate.
          -- injection G as <-. exact (crack_two l r b Q1 Q2 Q3 Hr B).
          -- injection G as ->. discriminate.
      + rewrite !set_slot_at, !Nat.eqb_refl. cbn [andb]. destruct ((r =? r') && (i =? opp_index i)); eauto.
  Qed.
  Lemma checks_ok : forall l m m', inv m -> (forall x, In x l -> fst x < nrs) -> fold_left (check_side nrs bnames) l (Some m) = Some m' -> inv m'.
  Proof.
    induction l as [|[r i] l IH]; intros m m' H Hl E; cbn [fold_left] in E; [injection E as <-; exact H|].
    destruct (check_side nrs bnames (Some m) (r, i)) as [m1|] eqn:E1.
    - apply (IH m1 m'); [|intros x Hx; apply Hl; now right|exact E]. apply (check_ok m r i m1 H); [apply (Hl (r, i)); now left|exact E1].
    - assert (N : forall l, fold_left (check_side nrs bnames) l None = None) by (induction l0 as [|[? ?] l0 IHl]; [reflexivity|exact IHl]). rewrite N in E. discriminate.
  Qed.
  Lemma all_sides_In r i : In (r, i) (all_sides nrs) <-> r < nrs /\ i < 6.
  Proof.
    unfold all_sides. rewrite in_flat_map. split.
    - intros (r' & H1 & H2). apply in_map_iff in H2. destruct H2 as (j & H2 & H3). apply in_seq in H1. apply in_seq in H3. injection H2 as <- <-. lia.
    - intros (H1 & H2). exists r. split; [apply in_seq; lia|]. apply in_map. apply in_seq. lia.
  Qed.
  Lemma at_side_In r i b : In b (at_side r i) <-> In (b, (r, i)) bsides.
  Proof.
    clear HB HS. unfold at_side. rewrite in_map_iff. split.
    - intros ([b' [r' i']] & <- & H). apply filter_In in H. destruct H as (H & E). cbn [fst snd] in *. apply eqb2 in E. destruct E as (-> & ->). exact H.
    - intros H. exists (b, (r, i)). split; [reflexivity|]. apply filter_In. split; [exact H|]. cbn. rewrite !Nat.eqb_refl. reflexivity.
  Qed.
  Lemma attached_lt r i x : In x (attached_regions corner nrs r i) -> x < nrs.
  Proof. intros H. apply attached_In in H. apply H. Qed.
  Lemma at_side_ge r i b : In b (at_side r i) -> nrs <= b /\ In b bnames.
  Proof. intros H. apply at_side_In in H. destruct (HS _ H) as (H1 & _). split; [apply HB|]; exact H1. Qed.
  Context (m : rmap) (E : region_map corner nrs bnames bsides = Some m).
  Lemma map_inv : inv m /\ (forall r i, r < nrs -> i < 6 -> paired m bnames (r, i) = true) /\ (forall x, In x bsides -> fst (snd x) < nrs).
  Proof.
    revert E. unfold region_map. cbv zeta.
    match goal with |- context [fold_left (add_boundary nrs) bsides ?x] => destruct (fold_left (add_boundary nrs) bsides x) as [m1|] eqn:E1 end.
    - destruct (fold_left (check_side nrs bnames) (all_sides nrs) (Some m1)) as [m2|] eqn:E2; intros EE; [|discriminate].
      destruct (forallb (paired m2 bnames) (all_sides nrs)) eqn:E3; [|discriminate]. injection EE as ->.
      destruct (add_ok _ _ _ E1 ltac:(eauto)) as (A1 & A2). split; [|split].
      + apply (checks_ok (all_sides nrs) m1); [|intros [r i] Hx; apply all_sides_In in Hx; apply Hx|exact E2].
        intros r i. left. rewrite (A2 r i (attached_regions corner nrs r i) eq_refl). reflexivity.
      + intros r i Hr Hi. rewrite forallb_forall in E3. apply E3. apply all_sides_In. auto.
      + exact A1.
    - assert (N : forall l, fold_left (check_side nrs bnames) l None = None) by (induction l as [|[? ?] l IHl]; [reflexivity|exact IHl]). rewrite N. discriminate.
  Qed.
  Lemma map_side r i : r < nrs -> i < 6 -> exists n, m r i = Name n /\
    ((In n bnames /\ In (n, (r, i)) bsides) \/
     (n < nrs /\ n <> r /\ ~ In n bnames /\ m n (facing i) = Name r /\ attached_regions corner nrs r i = [n] /\ exists ii, ii < 6 /\ corners_of corner r i = corners_of corner n ii)).
  Proof.
    intros Hr Hi. destruct map_inv as (IV & PR & _). specialize (PR r i Hr Hi). unfold paired in PR. cbn [fst snd] in PR.
    destruct (m r i) as [|n] eqn:En; [discriminate|]. exists n. split; [reflexivity|]. destruct (mem n bnames) eqn:Mn.
    - left. apply mem_In in Mn. split; [exact Mn|]. apply at_side_In. assert (G0 : nrs <= n) by (apply HB; exact Mn).
      assert (In n (L0 r i)).
      { destruct (IV r i) as [G|[(b & [G|G] & C)|(x & G & C)]]; rewrite En in G; try discriminate.
        - injection G as <-. destruct C as (_ & x & _ & [-> | ->]); cbn; auto.
        - injection G as <-. rewrite C. now left. }
      unfold L0 in H. apply in_app_or in H. destruct H as [H|H]; [apply attached_lt in H; lia|exact H].
    - right. assert (NB : ~ In n bnames) by (intros G; apply mem_In in G; congruence).
      destruct (index_of m n r) as [j|] eqn:Ej; [|discriminate]. apply Nat.eqb_eq in PR. subst j.
      assert (L1 : L0 r i = [n]).
      { destruct (IV r i) as [G|[(b & [G|G] & C)|(x & G & C)]]; rewrite En in G; try discriminate.
        - injection G as <-. destruct C as (C & _). contradiction.
        - injection G as <-. exact C. }
      assert (AT : attached_regions corner nrs r i = [n]).
      { unfold L0 in L1. destruct (attached_regions corner nrs r i) as [|z l] eqn:Ea.
        - cbn [app] in L1. exfalso. apply NB. apply (at_side_ge r i). rewrite L1. now left.
        - cbn [app] in L1. injection L1 as <- L1. apply app_eq_nil in L1. destruct L1 as (-> & _). reflexivity. }
      assert (In n (attached_regions corner nrs r i)) by (rewrite AT; now left). apply attached_In in H. destruct H as (H1 & H2 & H3).
      repeat split; auto. unfold index_of in Ej. apply find_some in Ej. destruct Ej as (_ & Ej). destruct (opp_index_ok i Hi) as (-> & _).
      destruct (opp_index_ok i Hi) as (O1 & _). rewrite O1 in Ej. destruct (m n (facing i)) as [|n']; [discriminate|]. apply Nat.eqb_eq in Ej. congruence.
  Qed.
  Lemma map_boundary b r i : In (b, (r, i)) bsides -> r < nrs /\ m r i = Name b /\ at_side r i = [b].
  Proof.
    intros H. destruct map_inv as (IV & PR & RG). assert (Hr := RG _ H). cbn [fst snd] in Hr. destruct (HS _ H) as (Bn & Hi). cbn [fst snd] in Bn, Hi.
    assert (IB : In b (at_side r i)) by (apply at_side_In; exact H). split; [exact Hr|].
    destruct (map_side r i Hr Hi) as (n & En & [(N1 & N2)|(N1 & _ & N3 & _ & AT & _)]).
    - assert (AS : at_side r i = [n] /\ b = n).
      { assert (GE : forall y, In y (at_side r i) -> nrs <= y) by (intros y Hy; apply (at_side_ge r i); exact Hy).
        assert (LT : forall y, In y (attached_regions corner nrs r i) -> y < nrs) by (intros y Hy; exact (attached_lt r i y Hy)).
        assert (Q : L0 r i = [n] \/ crack (L0 r i) n).
        { destruct (IV r i) as [G|[(b' & [G|G] & C)|(x & G & C)]]; rewrite En in G; try discriminate; injection G as <-; auto. }
        unfold L0 in Q. set (A := attached_regions corner nrs r i) in *. set (B := at_side r i) in *. clearbody A B.
        destruct Q as [Q|(C1 & x & Hx & Q)].
        - destruct A as [|a A]; cbn [app] in Q.
          + subst B. split; [reflexivity|]. destruct IB as [->|[]]. reflexivity.
          + injection Q as <- Q. apply app_eq_nil in Q. destruct Q as (_ & ->). contradiction.
        - assert (G2 : nrs <= n) by (apply HB; exact C1). destruct A as [|a [|a' A]]; cbn [app] in Q.
          + assert (In x B) by (destruct Q as [-> | ->]; cbn; auto). specialize (GE x H0). lia.
          + destruct Q as [Q|Q]; injection Q as -> ->; [|specialize (LT n (or_introl eq_refl)); lia]. split; [reflexivity|]. destruct IB as [->|[]]. reflexivity.
          + assert (In n (a :: a' :: A)) by (destruct Q as [Q|Q]; injection Q as -> -> Q; cbn; auto). specialize (LT n H0). lia. }
      destruct AS as (AS & ->). auto.
    - exfalso. destruct (IV r i) as [G|[(b' & [G|G] & C)|(x & G & C)]]; rewrite En in G; try discriminate.
      + injection G as <-. destruct C as (C & _). contradiction.
      + injection G as <-. unfold L0 in C. rewrite AT in C. destruct (at_side r i); [contradiction|discriminate].
  Qed.
  Lemma bsides_NoDup : NoDup (map snd bsides).
  Proof.
    assert (Q : forall r i, length (at_side r i) <= 1).
    { intros r i. destruct (at_side r i) as [|b l] eqn:Ea; [cbn; lia|]. assert (In b (at_side r i)) by (rewrite Ea; now left). apply at_side_In in H.
      destruct (map_boundary b r i H) as (_ & _ & A). rewrite <- Ea, A. cbn. lia. }
    clear - Q. unfold at_side in Q. induction bsides as [|[b [r i]] bs IH]; cbn [map]; constructor.
    - intros H. specialize (Q r i). cbn [filter fst snd] in Q. rewrite !Nat.eqb_refl in Q. cbn [andb map length] in Q.
      apply in_map_iff in H. destruct H as ([b' ri] & E1 & H). cbn [snd] in E1. subst ri.
      assert (In (b', (r, i)) (filter (fun x => (fst (snd x) =? r) && (snd (snd x) =? i)) bs)) by (apply filter_In; cbn; rewrite !Nat.eqb_refl; auto).
      rewrite map_length in Q. destruct (filter _ bs); [contradiction|cbn in Q; lia].
    - apply IH. intros r' i'. specialize (Q r' i'). cbn [filter] in Q. destruct ((fst (snd (b, (r, i))) =? r') && _); cbn [map length] in Q; lia.
  Qed.
  (** no crack on region r: matching sides are the facing ones *)
  Lemma map_corners r i n : r < nrs -> i < 6 -> m r i = Name n -> ~ In n bnames ->
    (forall jj, jj < 6 -> attached_regions corner nrs r jj <> [] -> at_side r jj = []) -> corners_of corner r i = corners_of corner n (facing i).
  Proof.
    intros Hr Hi En NB NC. destruct (map_side r i Hr Hi) as (n' & En' & [(N1 & _)|(N1 & N2 & _ & N4 & AT & _)]); [congruence|]. assert (n' = n) by congruence. subst n'. clear En'.
    destruct (opp_index_ok i Hi) as (O1 & O2 & O3).
    destruct (map_side n (facing i) N1 ltac:(lia)) as (r' & Er' & C). rewrite N4 in Er'. injection Er' as <-.
    destruct C as [(C1 & _)|(_ & _ & _ & _ & _ & jj & J1 & J2)]; [specialize (HB r C1); lia|].
    assert (IJ : In n (attached_regions corner nrs r jj)) by (apply attached_In; repeat split; auto; exists (facing i); split; [lia|congruence]).
    destruct (map_side r jj Hr J1) as (nj & Enj & C). destruct map_inv as (IV & PR & _).
    assert (IN : forall k, k < 6 -> m r k = Name n -> index_of m n r = Some (opp_index k)).
    { intros k Hk Ek. specialize (PR r k Hr Hk). unfold paired in PR. cbn [fst snd] in PR. rewrite Ek in PR.
      destruct (mem n bnames) eqn:Mn; [apply mem_In in Mn; contradiction|]. destruct (index_of m n r); [|discriminate]. apply Nat.eqb_eq in PR. congruence. }
    destruct C as [(C1 & C2)|(_ & _ & _ & _ & AJ & _)].
    - exfalso. apply at_side_In in C2. rewrite (NC jj J1) in C2; [contradiction|]. intros Z. rewrite Z in IJ. contradiction.
    - rewrite AJ in IJ. destruct IJ as [->|[]]. assert (Q1 := IN i Hi En). assert (Q2 := IN jj J1 Enj). rewrite Q1 in Q2. injection Q2 as Q2.
      destruct (opp_index_ok jj J1) as (_ & _ & O4). assert (jj = i) by congruence. subst jj. congruence.
  Qed.
End RM.
