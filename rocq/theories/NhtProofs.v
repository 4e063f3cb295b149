(** Proofs about NhtModel: renumbering the dofs on the surfaces of the elements. *)
From Coq Require Import List Arith ZArith Bool Lia.
From Verif Require Import Prelude PreludeProofs RingSum AssembleModel AssembleSpec AssembleProofs SpaceModel SpaceSpec SpaceProofs MeshMapModel TraceModel TraceSpec NumModel NumSpec NumProofs NhtModel.
Import ListNotations.

Definition sub (v idx : list nat) : list nat := map (fun i => nth i v 0) idx.
Lemma np_take_ok {A} (arr : list A) (d : A) idx : (forall i, In i idx -> i < length arr) -> np_take arr (zs idx) = Some (map (fun i => nth i arr d) idx).
Proof.
  intros H. unfold np_take. apply AssembleProofs.all_some_map. induction idx as [|i idx IH]; constructor.
  - unfold np_get. replace (0 <=? Z.of_nat i)%Z with true by (symmetry; lia). rewrite Nat2Z.id. apply nth_error_nth'. apply H. now left.
  - apply IH. intros. apply H. now right.
Qed.
Lemma in_zs x l : In (Z.of_nat x) (zs l) <-> In x l.
Proof. unfold zs. rewrite in_map_iff. split; [intros (y & E & H); apply Nat2Z.inj in E; congruence|intros H; eauto]. Qed.
Lemma zs_range l n : (forall x, In x l -> x < n) -> forall i, In i (zs l) -> (0 <= i < Z.of_nat n)%Z.
Proof. intros H i Hi. unfold zs in Hi. apply in_map_iff in Hi. destruct Hi as (x & <- & Hx). specialize (H x Hx). lia. Qed.
(** assigning one value *)
Lemma put_scalar (R : list Z) g z : (forall d, In d g -> d < length R) ->
  exists R', np_put R (zs g) [z] = Some R' /\ length R' = length R /\ forall d, d < length R -> nth_error R' d = if in_dec Nat.eq_dec d g then Some z else nth_error R d.
Proof.
  intros H. unfold np_put. assert (B : np_broadcast [z] (length (zs g)) = Some (repeat z (length g))).
  { unfold np_broadcast. unfold zs. rewrite map_length. cbn [length]. destruct (Nat.eqb_spec 1 (length g)) as [<-|]; reflexivity. }
  rewrite B. assert (M : map fst (combine (zs g) (repeat z (length g))) = zs g) by (apply AssembleProofs.map_fst_combine; unfold zs; rewrite map_length, repeat_length; reflexivity).
  destruct (np_put_list_ok (combine (zs g) (repeat z (length g))) R) as (R' & E & L & Sp); [rewrite M; apply zs_range; exact H|].
  exists R'. split; [exact E|]. split; [exact L|]. intros d Hd. destruct (Sp d Hd) as [(Nn & V)|(w1 & x & w2 & Ew & _ & V)].
  - rewrite M, in_zs in Nn. destruct (in_dec Nat.eq_dec d g); [contradiction|exact V].
  - assert (X : In (Z.of_nat d, x) (combine (zs g) (repeat z (length g)))) by (rewrite Ew; apply in_elt).
    assert (In d g) by (apply in_zs; eapply in_combine_l; exact X). apply in_combine_r in X. apply repeat_spec in X. subst x.
    destruct (in_dec Nat.eq_dec d g); [exact V|contradiction].
Qed.
(** assigning a list to different places *)
Lemma put_list (R : list Z) g zl : NoDup g -> length zl = length g -> (forall d, In d g -> d < length R) ->
  exists R', np_put R (zs g) zl = Some R' /\ length R' = length R /\ (forall d, d < length R -> ~ In d g -> nth_error R' d = nth_error R d) /\
    forall i d, nth_error g i = Some d -> nth_error R' d = nth_error zl i.
Proof.
  intros ND Hl H. unfold np_put. assert (Lz : length (zs g) = length g) by apply map_length. rewrite (broadcast_eq zl) by lia.
  assert (M : map fst (combine (zs g) zl) = zs g) by (apply AssembleProofs.map_fst_combine; lia).
  destruct (np_put_list_ok (combine (zs g) zl) R) as (R' & E & L & Sp); [rewrite M; apply zs_range; exact H|].
  exists R'. split; [exact E|]. split; [exact L|]. split.
  - intros d Hd Nd. destruct (Sp d Hd) as [(_ & V)|(w1 & x & w2 & Ew & _ & V)]; [exact V|]. exfalso. apply Nd. apply in_zs.
    eapply in_combine_l. rewrite Ew. apply in_elt.
  - intros i d Hi. assert (Hg : In d g) by (eapply nth_error_In; exact Hi). destruct (Sp d (H d Hg)) as [(Nn & V)|(w1 & x & w2 & Ew & _ & V)].
    + rewrite M, in_zs in Nn. contradiction.
    + rewrite V. assert (X : nth_error (combine (zs g) zl) (length w1) = Some (Z.of_nat d, x)) by (rewrite Ew, nth_error_app2, Nat.sub_diag by lia; reflexivity).
      rewrite nth_error_combine in X. unfold zs in X at 1. rewrite nth_error_map in X. destruct (nth_error g (length w1)) as [d'|] eqn:E'; [|discriminate]. cbn [option_map] in X.
      destruct (nth_error zl (length w1)) as [x'|] eqn:Ex; [|discriminate]. assert (d' = d) by (injection X; intros; lia). subst d'.
      rewrite (NoDup_nth_inj g i (length w1) d ND Hi E'). rewrite Ex. congruence.
Qed.

Section Renumber.
  Variables (int surf : list nat) (K : nat).
  (** the surface dofs of elements *)
  Definition S_ (vs : list (list nat)) : list nat := flat_map (fun v => sub v surf) vs.
  Definition fits (v : list nat) : Prop := (forall i, In i int \/ In i surf -> i < length v) /\ (forall d, In d v -> d < K) /\ NoDup (sub v surf) /\
    (forall d, In d (sub v int) -> ~ In d (sub v surf)).
  (** new dofs are above old ones; internal dofs are not surface dofs of earlier elements *)
  Definition after (vs : list (list nat)) (v : list nat) : Prop :=
    (forall d, In d (sub v surf) -> ~ In d (S_ vs) -> forall d', In d' (S_ vs) -> d' < d) /\ (forall d, In d (sub v int) -> ~ In d (S_ vs)).
  Definition inv (vs : list (list nat)) (R : list Z) (CN : nat) (n2 : Z) : Prop :=
    length R = K /\ (forall d, In d (S_ vs) -> exists c, c < CN /\ nth_error R d = Some (Z.of_nat c)) /\
    (forall d d' z, In d (S_ vs) -> In d' (S_ vs) -> nth_error R d = Some z -> nth_error R d' = Some z -> d = d') /\
    (forall c, c < CN -> exists d, In d (S_ vs) /\ nth_error R d = Some (Z.of_nat c)) /\
    (forall d, In d (S_ vs) -> (Z.of_nat d <= n2)%Z) /\ (n2 = (-1)%Z \/ exists d, In d (S_ vs) /\ n2 = Z.of_nat d) /\
    (forall z, In z R -> (z <= Z.max 0 (Z.of_nat CN - 1))%Z).
  Lemma S_snoc vs v d : In d (S_ (vs ++ [v])) <-> In d (S_ vs) \/ In d (sub v surf).
  Proof. unfold S_. rewrite flat_map_app, in_app_iff. cbn [flat_map]. rewrite app_nil_r. tauto. Qed.
  Lemma in_sub v idx d : (forall i, In i idx -> i < length v) -> In d (sub v idx) -> In d v.
  Proof. intros H. unfold sub. rewrite in_map_iff. intros (i & <- & Hi). apply nth_In. apply H. exact Hi. Qed.

  Lemma one_ok vs v R CN n2 : fits v -> after vs v -> inv vs R CN n2 ->
    exists R' CN' n2', renumber_one int surf (Some (R, CN, n2)) v = Some (R', CN', n2') /\ inv (vs ++ [v]) R' CN' n2' /\ forall d, In d (S_ vs) -> nth_error R' d = nth_error R d.
  Proof.
    intros (F1 & F2 & F3 & F4) (A1 & A2) (I1 & I2 & I3 & I4 & I5 & I6 & I7).
    assert (Lint : forall d, In d (sub v int) -> d < length R) by (intros d Hd; rewrite I1; apply F2; eapply in_sub; [|exact Hd]; auto).
    assert (Lsurf : forall d, In d (sub v surf) -> d < length R) by (intros d Hd; rewrite I1; apply F2; eapply in_sub; [|exact Hd]; auto).
    unfold renumber_one. rewrite (np_take_ok v 0 surf) by auto. fold (sub v surf).
    (* the internal dofs *)
    assert (St : exists R1, (if 0 <? length int then match np_take v (zs int) with Some g => np_put R (zs g) [(-1)%Z] | None => None end else Some R) = Some R1 /\
      length R1 = length R /\ forall d, d < length R -> nth_error R1 d = if in_dec Nat.eq_dec d (sub v int) then Some (-1)%Z else nth_error R d).
    { destruct (Nat.ltb_spec 0 (length int)) as [H0|H0].
      - rewrite (np_take_ok v 0 int) by auto. apply put_scalar. exact Lint.
      - exists R. split; [reflexivity|]. split; [reflexivity|]. intros d Hd. destruct int; [reflexivity|cbn in H0; lia]. }
    destruct St as (R1 & -> & L1 & V1).
    assert (K1 : forall d, In d (S_ vs) -> nth_error R1 d = nth_error R d).
    { intros d Hd. destruct (I2 d Hd) as (c & _ & E). assert (d < length R) by (apply nth_error_Some; congruence). rewrite V1 by assumption.
      destruct (in_dec Nat.eq_dec d (sub v int)) as [X|X]; [exfalso; exact (A2 d X Hd)|reflexivity]. }
    assert (B1 : forall z, In z R1 -> (z <= Z.max 0 (Z.of_nat CN - 1))%Z).
    { intros z Hz. apply In_nth_error in Hz. destruct Hz as (d & Hd). assert (d < length R) by (rewrite <- L1; apply nth_error_Some; congruence). rewrite V1 in Hd by assumption.
      destruct (in_dec Nat.eq_dec d (sub v int)); [injection Hd as <-; lia|]. apply I7. eapply nth_error_In. exact Hd. }
    set (g := filter (fun d => (n2 <? Z.of_nat d)%Z) (sub v surf)).
    assert (G : forall d, In d g <-> In d (sub v surf) /\ ~ In d (S_ vs)).
    { intros d. unfold g. rewrite filter_In, Z.ltb_lt. split; intros [H H']; split; try exact H.
      - intros X. specialize (I5 d X). lia.
      - destruct I6 as [->|(d' & Hd' & ->)]; [lia|]. specialize (A1 d H H' d' Hd'). lia. }
    assert (NDg : NoDup g) by (apply NoDup_filter; exact F3).
    assert (SS : forall d, In d (S_ (vs ++ [v])) <-> In d (S_ vs) \/ In d g).
    { intros d. rewrite S_snoc, G. destruct (in_dec Nat.eq_dec d (S_ vs)); tauto. }
    destruct (Nat.eqb_spec (length g) 0) as [Eg|Eg].
    - assert (g = []) by (destruct g; [reflexivity|discriminate]). assert (SE : forall d, In d (S_ (vs ++ [v])) <-> In d (S_ vs)) by (intros d; rewrite SS, H; cbn; tauto).
      exists R1, CN, n2. split; [reflexivity|]. split; [|exact K1].
      refine (conj _ (conj _ (conj _ (conj _ (conj _ (conj _ B1)))))).
      + lia.
      + intros d Hd. apply SE in Hd. rewrite (K1 d Hd). apply I2. exact Hd.
      + intros d d' z Hd Hd'. apply SE in Hd, Hd'. rewrite (K1 d Hd), (K1 d' Hd'). apply I3; assumption.
      + intros c Hc. destruct (I4 c Hc) as (d & Hd & E). exists d. rewrite SE, (K1 d Hd). auto.
      + intros d Hd. apply I5, SE, Hd.
      + destruct I6 as [H6|(d & Hd & E)]; [now left|right]. exists d. rewrite SE. auto.
    - destruct (put_list R1 g (zs (seq CN (length g))) NDg) as (R2 & -> & L2 & V2 & V2'); [unfold zs; rewrite map_length, seq_length; reflexivity|intros d Hd; rewrite L1; apply Lsurf, G, Hd|].
      assert (Mx : exists m, zmax (zs g) = Some (Z.of_nat m) /\ In m g /\ forall d, In d g -> d <= m).
      { destruct (zmax (zs g)) as [z|] eqn:E; [|destruct g; [cbn in Eg; lia|discriminate]]. apply zmax_spec in E. destruct E as [H1 H2]. unfold zs in H1. apply in_map_iff in H1. destruct H1 as (m & <- & Hm).
        exists m. split; [reflexivity|]. split; [exact Hm|]. intros d Hd. specialize (H2 (Z.of_nat d) (proj2 (in_zs d g) Hd)). lia. }
      destruct Mx as (m & -> & Hm & Hmax). exists R2, (CN + length g), (Z.of_nat m). split; [reflexivity|].
      assert (K2 : forall d, In d (S_ vs) -> nth_error R2 d = nth_error R d).
      { intros d Hd. rewrite <- (K1 d Hd). apply V2; [rewrite L1; destruct (I2 d Hd) as (c & _ & E); apply nth_error_Some; congruence|]. intros X. apply G in X. tauto. }
      assert (N2 : forall i d, nth_error g i = Some d -> nth_error R2 d = Some (Z.of_nat (CN + i))).
      { intros i d Hi. rewrite (V2' i d Hi). unfold zs. rewrite nth_error_map_seq. assert (i < length g) by (apply nth_error_Some; congruence). destruct (Nat.ltb_spec i (length g)); [reflexivity|lia]. }
      split; [|exact K2]. refine (conj _ (conj _ (conj _ (conj _ (conj _ (conj _ _)))))).
      + lia.
      + intros d Hd. apply SS in Hd. destruct Hd as [Hd|Hd].
        * destruct (I2 d Hd) as (c & Hc & E). exists c. rewrite (K2 d Hd). split; [lia|exact E].
        * apply In_nth_error in Hd. destruct Hd as (i & Hi). exists (CN + i). rewrite (N2 i d Hi). split; [|reflexivity]. assert (i < length g) by (apply nth_error_Some; congruence). lia.
      + assert (Mix : forall d d' z, In d (S_ vs) -> In d' g -> nth_error R2 d = Some z -> nth_error R2 d' = Some z -> d = d').
        { intros d d' z Hd Hd' E E'. exfalso. apply In_nth_error in Hd'. destruct Hd' as (i & Hi). rewrite (N2 i d' Hi) in E'. rewrite (K2 d Hd) in E. destruct (I2 d Hd) as (c & Hc & E''). rewrite E'' in E. injection E as <-. injection E'. lia. }
        intros d d' z Hd Hd' E E'. apply SS in Hd, Hd'. destruct Hd as [Hd|Hd], Hd' as [Hd'|Hd'].
        * rewrite (K2 d Hd) in E. rewrite (K2 d' Hd') in E'. eapply I3; eassumption.
        * eapply Mix; eassumption.
        * symmetry. eapply Mix; eassumption.
        * apply In_nth_error in Hd, Hd'. destruct Hd as (i & Hi), Hd' as (j & Hj). rewrite (N2 i d Hi) in E. rewrite (N2 j d' Hj) in E'. assert (i = j) by (rewrite <- E' in E; injection E; lia). congruence.
      + intros c Hc. destruct (Nat.lt_ge_cases c CN) as [H|H].
        * destruct (I4 c H) as (d & Hd & E). exists d. rewrite SS, (K2 d Hd). auto.
        * destruct (nth_error g (c - CN)) as [d|] eqn:E; [|apply nth_error_None in E; lia]. exists d. split; [apply SS; right; eapply nth_error_In; exact E|]. rewrite (N2 _ d E). do 2 f_equal. lia.
      + intros d Hd. apply SS in Hd. destruct Hd as [Hd|Hd]; [|specialize (Hmax d Hd); lia].
        apply G in Hm. destruct Hm as [Hm1 Hm2]. specialize (A1 m Hm1 Hm2 d Hd). lia.
      + right. exists m. split; [apply SS; now right|reflexivity].
      + intros z Hz. apply In_nth_error in Hz. destruct Hz as (d & Hd). assert (Ld : d < length R1) by (rewrite <- L2; apply nth_error_Some; congruence). destruct (in_dec Nat.eq_dec d g) as [X|X].
        * apply In_nth_error in X. destruct X as (i & Hi). rewrite (N2 i d Hi) in Hd. injection Hd as <-. assert (i < length g) by (apply nth_error_Some; congruence). lia.
        * rewrite (V2 d Ld X) in Hd. assert (H := B1 z (nth_error_In _ _ Hd)). lia.
  Qed.
  (** the elements of a core *)
  Definition ordered (vs : list (list nat)) : Prop := forall a v b, vs = a ++ v :: b -> fits v /\ after a v.
  Lemma elements_ok (gm : list (nat * list nat)) : forall vs R CN n2, ordered (vs ++ map snd gm) -> inv vs R CN n2 ->
    exists R' CN' n2', fold_left (fun st ev => renumber_one int surf st (snd ev)) gm (Some (R, CN, n2)) = Some (R', CN', n2') /\ inv (vs ++ map snd gm) R' CN' n2' /\ forall d, In d (S_ vs) -> nth_error R' d = nth_error R d.
  Proof.
    induction gm as [|[e v] gm IH]; intros vs R CN n2 O I0; cbn [map fold_left].
    - rewrite app_nil_r. eauto 10.
    - destruct (O vs v (map snd gm) eq_refl) as [Fv Av]. destruct (one_ok vs v R CN n2 Fv Av I0) as (R1 & C1 & m1 & E & I1 & K1). cbn [snd]. rewrite E.
      destruct (IH (vs ++ [v]) R1 C1 m1) as (R' & C' & m' & E' & I' & K'); [rewrite <- app_assoc; exact O|exact I1|].
      exists R', C', m'. split; [exact E'|]. split; [rewrite <- app_assoc in I'; exact I'|]. intros d Hd. rewrite <- (K1 d Hd). apply K'. apply S_snoc. now left.
  Qed.
  Lemma S_app a b d : In d (S_ (a ++ b)) <-> In d (S_ a) \/ In d (S_ b).
  Proof. unfold S_. rewrite flat_map_app, in_app_iff. tauto. Qed.
  (** all cores: what is sent agrees with the last array on the surface dofs of the core *)
  Lemma cores_ok gms : forall vs R CN n2 sent, ordered (vs ++ map snd (concat gms)) -> inv vs R CN n2 ->
    exists R' CN' n2' new, fold_left (renumber_core int surf) gms (Some (R, CN, n2, sent)) = Some (R', CN', n2', sent ++ new) /\ inv (vs ++ map snd (concat gms)) R' CN' n2' /\
      (forall d, In d (S_ vs) -> nth_error R' d = nth_error R d) /\
      Forall2 (fun gm Rc => length Rc = K /\ forall d, In d (S_ (map snd gm)) -> nth_error Rc d = nth_error R' d) gms new.
  Proof.
    induction gms as [|gm gms IH]; intros vs R CN n2 sent O I0; cbn [concat map fold_left].
    - rewrite app_nil_r. exists R, CN, n2, []. rewrite app_nil_r. auto 10.
    - cbn [concat] in O. rewrite map_app, app_assoc in O. destruct (elements_ok gm vs R CN n2) as (R1 & C1 & m1 & E1 & I1 & K1); [|exact I0|].
      { intros a v b E. apply (O a v (b ++ map snd (concat gms))). rewrite E, <- app_assoc. reflexivity. }
      unfold renumber_core at 2. rewrite E1. cbn [fst snd]. destruct (IH (vs ++ map snd gm) R1 C1 m1 (sent ++ [R1]) O I1) as (R' & C' & m' & new & E' & I' & K' & F').
      exists R', C', m', (R1 :: new). rewrite <- app_assoc in E'. rewrite map_app, app_assoc. refine (conj E' (conj I' (conj _ _))).
      + intros d Hd. rewrite <- (K1 d Hd). apply K'. apply S_app. now left.
      + constructor; [|exact F']. split; [apply I1|]. intros d Hd. symmetry. apply K'. apply S_app. now right.
  Qed.
  Lemma inv_start : inv [] (repeat 0%Z K) 0 (-1)%Z.
  Proof.
    refine (conj (repeat_length _ _) (conj _ (conj _ (conj _ (conj _ (conj (or_introl eq_refl) _)))))).
    - intros d [].
    - intros d d' z [].
    - intros c H. lia.
    - intros d [].
    - intros z Hz. apply repeat_spec in Hz. lia.
  Qed.
  (** the renumbering: [n] surface dofs in all, [K = n + N * length int] *)
  Lemma renumbering_ok gms N n : ordered (map snd (concat gms)) -> 0 < n -> length (nodup Nat.eq_dec (S_ (map snd (concat gms)))) = n -> K = n + N * length int -> gms <> [] ->
    exists Rs rho, renumbering int surf K N gms = Some Rs /\
      Forall2 (fun gm Rc => length Rc = K /\ forall d, In d (S_ (map snd gm)) -> nth_error Rc d = Some (Z.of_nat (rho d))) gms Rs /\
      (forall d d', In d (S_ (map snd (concat gms))) -> In d' (S_ (map snd (concat gms))) -> rho d = rho d' -> d = d') /\
      (forall c, c < n <-> exists d, In d (S_ (map snd (concat gms))) /\ rho d = c).
  Proof.
    intros O Hn Ln EK Hg. destruct (cores_ok gms [] (repeat 0%Z K) 0 (-1)%Z [] O inv_start) as (R & CN & n2 & new & E & (I1 & I2 & I3 & I4 & I5 & I6 & I7) & _ & F). cbn [app] in *.
    set (vs := map snd (concat gms)) in *. pose (rho := fun d => Z.to_nat (nth d R 0%Z)).
    assert (Rho : forall d, In d (S_ vs) -> nth_error R d = Some (Z.of_nat (rho d)) /\ rho d < CN).
    { intros d Hd. destruct (I2 d Hd) as (c & Hc & Ec). assert (X : rho d = c) by (unfold rho; rewrite (nth_error_nth _ _ _ Ec), Nat2Z.id; reflexivity). rewrite X. auto. }
    assert (Inj : forall d d', In d (S_ vs) -> In d' (S_ vs) -> rho d = rho d' -> d = d').
    { intros d d' Hd Hd' Er. destruct (Rho d Hd) as [E1 _], (Rho d' Hd') as [E2 _]. eapply I3; eauto. rewrite Er. exact E2. }
    assert (Onto : forall c, c < CN <-> exists d, In d (S_ vs) /\ rho d = c).
    { intros c. split; [intros Hc; destruct (I4 c Hc) as (d & Hd & Ed); exists d; split; [exact Hd|]; destruct (Rho d Hd) as [E1 _]; rewrite E1 in Ed; injection Ed; lia|].
      intros (d & Hd & <-). apply Rho, Hd. }
    assert (EC : CN = n).
    { rewrite <- Ln. rewrite <- (seq_length CN 0), <- (map_length rho (nodup Nat.eq_dec (S_ vs))). apply Nat.le_antisymm; apply NoDup_incl_length.
      - apply seq_NoDup.
      - intros c Hc. apply in_seq in Hc. destruct (proj1 (Onto c) ltac:(lia)) as (d & Hd & <-). apply in_map. apply nodup_In. exact Hd.
      - apply NoDup_map_inj; [|apply NoDup_nodup]. intros d d' Hd Hd'. apply nodup_In in Hd, Hd'. apply Inj; assumption.
      - intros c Hc. apply in_map_iff in Hc. destruct Hc as (d & <- & Hd). apply nodup_In in Hd. apply in_seq. split; [lia|]. apply Rho, Hd. }
    subst CN. assert (Z1 : zmax R = Some (Z.of_nat (n - 1))).
    { apply zmax_spec. split.
      - destruct (I4 (n - 1) ltac:(lia)) as (d & _ & Ed). eapply nth_error_In. exact Ed.
      - intros z Hz. specialize (I7 z Hz). lia. }
    unfold renumbering. rewrite E, Z1. replace (_ =? _)%Z with true by (symmetry; apply Z.eqb_eq; rewrite EK; lia).
    destruct gms as [|gm0 gms']; [contradiction|]. inversion F as [|? R0 ? new' [F0 F0'] F']; subst. exists (R :: new'), rho. refine (conj eq_refl (conj _ (conj Inj Onto))).
    assert (Sub : forall gm, In gm (gm0 :: gms') -> forall d, In d (S_ (map snd gm)) -> In d (S_ vs)).
    { intros gm Hgm d Hd. unfold vs, S_ in *. apply in_flat_map in Hd. destruct Hd as (v & Hv & Hd). apply in_flat_map. exists v. split; [|exact Hd].
      apply in_map_iff in Hv. destruct Hv as (ev & <- & Hev). apply in_map. apply in_concat. eauto. }
    constructor.
    - split; [exact I1|]. intros d Hd. apply Rho. apply (Sub gm0); [now left|exact Hd].
    - assert (SubT : forall gm, In gm gms' -> forall d, In d (S_ (map snd gm)) -> In d (S_ vs)) by (intros; eapply Sub; [right; eassumption|assumption]).
      clearbody vs rho. clear -F' SubT Rho. revert SubT. induction F' as [|gm Rc g r [L V] F' IH]; intros SubT; [constructor|]. constructor; [|apply IH; intros; eapply SubT; [right; eassumption|assumption]].
      split; [exact L|]. intros d Hd. rewrite (V d Hd). apply Rho. apply (SubT gm); [now left|exact Hd].
  Qed.
End Renumber.
