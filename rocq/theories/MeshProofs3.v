(** Optimisation of the element distribution. *)
From Coq Require Import List Arith Bool Lia ZArith.
From Verif Require Import Prelude PreludeProofs SpaceModel SpaceProofs MiscModel MiscProofs2 MeshModel MeshSpec MeshProofs MeshProofs2.
Import ListNotations.
Local Open Scope nat_scope.

Lemma sum_last dis : dis <> [] -> sum dis = last dis 0 + sum (removelast dis).
Proof. intros H. rewrite (app_removelast_last 0 H) at 1. rewrite sum_app. unfold sum at 2. cbn. lia. Qed.
Lemma length_removelast {A} (l : list A) : length (removelast l) = length l - 1.
Proof. induction l as [|x [|y l] IH]; [reflexivity|reflexivity|]. cbn [removelast length] in *. lia. Qed.
Lemma sum_scale l k : sum (map (fun L => L * k) l) = sum l * k.
Proof. induction l as [|x l IH]; [reflexivity|]. cbn [map]. rewrite !sum_cons, IH. lia. Qed.
Lemma Forall_last P l (d : nat) : Forall P l -> l <> [] -> P (last l d).
Proof. intros F N. rewrite (app_removelast_last d N) in F. apply Forall_app in F. destruct F as (_ & F). inversion F; assumption. Qed.

Lemma hand_out_ok who skip ML : forall cs ls dis, length cs = length ls ->
  length dis = length (filter (fun c => negb (c =? who) && negb (skip c)) cs) ->
  length (hand_out who skip ML cs ls dis) = length ls /\
  sum (hand_out who skip ML cs ls dis) + sum (map snd (filter (fun cl => fst cl =? who) (combine cs ls)))
    = sum ls + ML * length (filter (fun c => c =? who) cs) + sum dis /\
  (1 <= ML -> Forall (fun n => 1 <= n) ls -> Forall (fun n => 1 <= n) (hand_out who skip ML cs ls dis)).
Proof.
  induction cs as [|c cs IH]; intros [|L ls] dis H D; try discriminate; cbn [hand_out].
  - cbn [filter length] in D. destruct dis; [|discriminate]. cbn. split; [reflexivity|]. split; [lia|auto].
  - cbn [filter combine fst] in *. cbn [length] in H. destruct (c =? who) eqn:E; cbn [negb andb length map snd] in *.
    + destruct (IH ls dis ltac:(lia) D) as (I1 & I2 & I3). rewrite !sum_cons. split; [lia|]. split; [lia|].
      intros M F. inversion F; subst. constructor; auto.
    + destruct (skip c); cbn [negb length] in *.
      * destruct (IH ls dis ltac:(lia) D) as (I1 & I2 & I3). rewrite !sum_cons. split; [lia|]. split; [lia|].
        intros M F. inversion F; subst. constructor; auto.
      * destruct (IH ls (removelast dis) ltac:(lia) ltac:(rewrite length_removelast; lia)) as (I1 & I2 & I3).
        rewrite (sum_last dis) by (intros ->; discriminate). rewrite !sum_cons. split; [lia|]. split; [lia|].
        intros M F. inversion F; subst. constructor; [lia|auto].
Qed.
Lemma count_one who cs : NoDup cs -> In who cs -> length (filter (fun c => c =? who) cs) = 1.
Proof.
  intros ND. induction ND as [|x cs Hx ND IH]; intros H; [contradiction|]. cbn [filter]. destruct H as [->|H].
  - rewrite Nat.eqb_refl. cbn [length]. f_equal. clear IH ND. induction cs as [|y cs IH]; [reflexivity|]. cbn [filter].
    destruct (Nat.eqb_spec y who) as [->|N]; [exfalso; apply Hx; now left|]. apply IH. intros G. apply Hx. now right.
  - destruct (Nat.eqb_spec x who) as [->|N]; [contradiction|]. apply IH. exact H.
Qed.
Lemma relieve_ok f who skip cs ls : (forall n, f n <= n) -> (forall n, 2 < n -> 1 <= f n) -> NoDup cs -> length cs = length ls -> Forall (fun n => 1 <= n) ls ->
  length (relieve f who skip cs ls) = length ls /\ sum (relieve f who skip cs ls) = sum ls /\ Forall (fun n => 1 <= n) (relieve f who skip cs ls).
Proof.
  intros Hf Hp ND L F. unfold relieve. destruct (existsb (Nat.eqb who) cs) eqn:E; [|auto]. apply existsb_in in E. cbv zeta.
  set (W := sum (map snd (filter (fun cl => fst cl =? who) (combine cs ls)))).
  assert (W1 : 1 <= W).
  { unfold W. clear - L F E. revert ls L F. induction cs as [|c cs IH]; intros [|l ls] L F; try discriminate; [contradiction|]. cbn [combine filter fst]. inversion F; subst.
    destruct (Nat.eqb_spec c who) as [->|N]; [cbn [map snd]; rewrite sum_cons; lia|]. apply IH; auto. destruct E as [->|E]; [contradiction|exact E]. }
  set (ML := if W <=? 2 then W else f W).
  assert (M : 1 <= ML <= W) by (unfold ML; destruct (Nat.leb_spec W 2); [lia|split; [apply Hp; lia|apply Hf]]).
  destruct ((W - ML =? 0) || (length (filter (fun c => negb (c =? who) && negb (skip c)) cs) =? 0)) eqn:B; [auto|].
  apply orb_false_iff in B. destruct B as (B1 & B2). apply Nat.eqb_neq in B1, B2.
  destruct (hand_out_ok who skip ML cs ls (evenly (W - ML) (length (filter (fun c => negb (c =? who) && negb (skip c)) cs))) L (evenly_length _ _)) as (Q1 & Q2 & Q3).
  fold W in Q2. rewrite count_one, evenly_sum in Q2 by (auto; lia). split; [exact Q1|]. split; [lia|]. apply Q3; [lia|exact F].
Qed.

Section Opt.
  Context (mlf slf : nat -> nat) (Hm : forall n, mlf n <= n) (Hs : forall n, slf n <= n)
          (Hm1 : forall n, 2 < n -> 1 <= mlf n) (Hs1 : forall n, 2 < n -> 1 <= slf n).
  Lemma opt_block_ok sec layers cs B k : NoDup cs -> 1 <= length cs <= layers -> B = k * layers -> 1 <= k ->
    exists ns, opt_block mlf slf sec layers cs B = Some ns /\ length ns = length cs /\ sum ns = B /\ Forall (fun n => 1 <= n) ns.
  Proof.
    intros ND Hc -> Hk. unfold opt_block. cbv zeta. rewrite Nat.div_mul by lia. rewrite Nat.eqb_refl.
    set (d3 := rev (evenly layers (length cs))).
    assert (L3 : length cs = length d3) by (unfold d3; rewrite rev_length, evenly_length; reflexivity).
    assert (F3 : Forall (fun n => 1 <= n) d3). { apply Forall_forall. intros x Hx. unfold d3 in Hx. apply in_rev in Hx. exact (evenly_pos layers (length cs) x ltac:(lia) Hx). }
    assert (S3 : sum d3 = layers) by (unfold d3; rewrite sum_rev; apply evenly_sum; lia).
    destruct (relieve_ok mlf master (fun _ => false) cs d3 Hm Hm1 ND L3 F3) as (A1 & A2 & A3).
    destruct (relieve_ok slf sec (fun c => c =? master) cs (relieve mlf master (fun _ => false) cs d3) Hs Hs1 ND ltac:(congruence) A3) as (B1 & B2 & B3).
    eexists. split; [reflexivity|]. rewrite map_length, sum_scale. split; [congruence|]. split; [rewrite B2, A2, S3; lia|].
    apply Forall_map. apply Forall_impl with (P := fun n => 1 <= n); [|exact B3]. intros a Ha. cbn. nia.
  Qed.
  Lemma opt_region_ok sec cores layers blocks : NoDup cores -> 1 <= layers -> (forall B, In B blocks -> exists k, B = k * layers /\ 1 <= k) ->
    opt_region mlf slf sec cores layers blocks = Some None \/
    exists ns, opt_region mlf slf sec cores layers blocks = Some (Some ns) /\ length ns = length cores /\ sum ns = sum blocks /\ Forall (fun n => 1 <= n) ns.
  Proof.
    intros ND HL HB. unfold opt_region. cbv zeta. destruct ((length blocks <? 2) || (length cores <? length blocks) || (layers =? 1)) eqn:E; [now left|].
    apply orb_false_iff in E. destruct E as (E & _). apply orb_false_iff in E. destruct E as (E1 & E2). apply Nat.ltb_ge in E1, E2.
    destruct (length cores =? length blocks) eqn:E3.
    { right. apply Nat.eqb_eq in E3. exists blocks. split; [reflexivity|]. split; [congruence|]. split; [reflexivity|]. apply Forall_forall. intros B H. destruct (HB B H) as (k & -> & Hk). nia. }
    set (d1 := evenly (length cores) (length blocks)). destruct (existsb (fun n => layers <? n) d1) eqn:E4; [now left|right].
    assert (D1 : forall n, In n d1 -> 1 <= n <= layers).
    { intros n Hn. split; [exact (evenly_pos (length cores) (length blocks) n ltac:(lia) Hn)|]. destruct (Nat.leb_spec n layers) as [H|H]; [exact H|].
      assert (T : existsb (fun n => layers <? n) d1 = true) by (apply existsb_exists; exists n; split; [exact Hn|apply Nat.ltb_lt; exact H]). congruence. }
    destruct (break_ok nat cores d1) as (P1 & P2 & P3). assert (SD : sum d1 = length cores) by (apply evenly_sum; lia). rewrite SD in *. rewrite firstn_all in P1. specialize (P3 (le_n _)).
    assert (LD : length d1 = length blocks) by apply evenly_length. rewrite LD in P2. clearbody d1.
    set (cs := break_list_into_parts cores (map Z.of_nat d1)) in *. clearbody cs.
    assert (ND2 : NoDup (concat cs)) by (rewrite P1; exact ND).
    assert (Q : exists nss, all_some (map (fun cB => opt_block mlf slf sec layers (fst cB) (snd cB)) (combine cs blocks)) = Some nss /\
                length (concat nss) = length (concat cs) /\ sum (concat nss) = sum blocks /\ Forall (fun n => 1 <= n) (concat nss)).
    { clear - HB D1 P2 P3 ND2 Hm Hs Hm1 Hs1. revert d1 blocks D1 P2 P3 HB. induction cs as [|c cs IH]; intros d1 [|B blocks] D1 P2 P3 HB; try discriminate.
      - exists []. cbn. auto.
      - destruct d1 as [|x d1]; [discriminate|]. cbn [map] in P3. injection P3 as P3 P4. cbn [length] in P2.
        destruct (HB B (or_introl eq_refl)) as (k & EB & Hk).
        destruct (opt_block_ok sec layers c B k (NoDup_concat_in (c :: cs) c ND2 (or_introl eq_refl)) ltac:(rewrite P3; apply D1; now left) EB Hk) as (ns & N1 & N2 & N3 & N4).
        destruct (IH ltac:(cbn [concat] in ND2; clear - ND2; induction c as [|z l IHl]; [exact ND2|apply IHl; cbn in ND2; inversion ND2; assumption])
                  d1 blocks ltac:(intros n Hn; apply D1; now right) ltac:(lia) P4 ltac:(intros b Hb; apply HB; now right)) as (nss & M1 & M2 & M3 & M4).
        exists (ns :: nss). cbn [combine map fst snd all_some]. rewrite N1, M1. split; [reflexivity|]. cbn [concat]. rewrite !app_length, sum_app, sum_cons. split; [lia|]. split; [lia|].
        apply Forall_app. auto. }
    destruct Q as (nss & Q1 & Q2 & Q3 & Q4). rewrite Q1. exists (concat nss). split; [reflexivity|]. split; [rewrite Q2, P1; reflexivity|]. auto.
  Qed.

  Definition para_fits (rc : list (list nat)) (d cnt : list nat) (para : nat -> option (nat * list nat)) : Prop :=
    forall r cs n p, nth_error rc r = Some cs -> nth_error cnt r = Some n -> para r = Some p -> para_ok n (Some p) /\ Forall (fun c => 1 <= at_core d c) cs.
  Lemma optimize_ok SIZE rc para d cnt : concat rc = seq 0 SIZE -> length d = SIZE -> by_region rc d cnt -> para_fits rc d cnt para ->
    exists d', optimize mlf slf SIZE rc para d = Some d' /\ length d' = SIZE /\ by_region rc d' cnt /\ (forall c, c < SIZE -> (1 <= at_core d c <-> 1 <= at_core d' c)).
  Proof.
    intros C L B P. unfold optimize. destruct (forallb _ _); [exists d; split; [reflexivity|]; split; [exact L|]; split; [exact B|]; tauto|].
    set (F := fun rcs : nat * list nat => _).
    assert (Q : forall rc1 cnt1 r0, NoDup (concat rc1) -> by_region rc1 d cnt1 -> (forall r cs n p, nth_error rc1 r = Some cs -> nth_error cnt1 r = Some n -> para (r0 + r) = Some p -> para_ok n (Some p) /\ Forall (fun c => 1 <= at_core d c) cs) ->
      exists nss, all_some (map F (combine (seq r0 (length rc1)) rc1)) = Some nss /\ Forall2 (fun cs ns => length cs = length ns) rc1 nss /\
        Forall2 (fun ns n => sum ns = n) nss cnt1 /\ Forall2 (fun cs ns => Forall2 (fun c n => 1 <= at_core d c <-> 1 <= n) cs ns) rc1 nss).
    { clear L. induction rc1 as [|cs rc1 IH]; intros cnt1 r0 ND B1 P1; inversion B1 as [|? n ? cnt2 E B2]; subst.
      - exists []. cbn. repeat split; constructor.
      - destruct (IH cnt2 (S r0)) as (nss & N1 & N2 & N3 & N4).
        { cbn [concat] in ND. clear - ND. induction cs as [|z l IHl]; [exact ND|apply IHl; cbn in ND; inversion ND; assumption]. }
        { exact B2. }
        { intros r cs1 n1 p1 G1 G2 G3. apply (P1 (S r) cs1 n1 p1 G1 G2). rewrite <- G3. f_equal. lia. }
        assert (U : forall ns, ns = map (at_core d) cs -> length cs = length ns /\ sum ns = sum (map (at_core d) cs) /\ Forall2 (fun c n => 1 <= at_core d c <-> 1 <= n) cs ns).
        { intros ns ->. rewrite map_length. split; [reflexivity|]. split; [reflexivity|]. clear. induction cs; constructor; tauto. }
        assert (V : exists ns, F (r0, cs) = Some ns /\ length cs = length ns /\ sum ns = sum (map (at_core d) cs) /\ Forall2 (fun c n => 1 <= at_core d c <-> 1 <= n) cs ns).
        { unfold F. cbn [fst snd]. destruct (para r0) as [[layers blocks]|] eqn:Ep; [|eexists; split; [reflexivity|]; apply U; reflexivity].
          destruct (P1 0 cs _ (layers, blocks) eq_refl eq_refl ltac:(rewrite Nat.add_0_r; exact Ep)) as ((K1 & K2 & K3) & K4).
          destruct (opt_region_ok (secretary SIZE) cs layers blocks (NoDup_concat_in (cs :: rc1) cs ND (or_introl eq_refl)) K1 K3) as [O|(ns & O1 & O2 & O3 & O4)].
          - rewrite O. eexists. split; [reflexivity|]. apply U. reflexivity.
          - rewrite O1. exists ns. split; [reflexivity|]. split; [congruence|]. split; [congruence|]. clear - O2 O4 K4. revert ns O2 O4.
            induction K4 as [|c cs Hc K4 IH]; intros [|n ns] O2 O4; try discriminate; constructor.
            + inversion O4; subst. tauto.
            + inversion O4; subst. apply IH; auto. }
        destruct V as (ns & V1 & V2 & V3 & V4). exists (ns :: nss). cbn [length seq combine map all_some]. rewrite V1, N1. split; [reflexivity|]. repeat split; constructor; auto. }
    destruct (Q rc cnt 0) as (nss & N1 & N2 & N3 & N4); [rewrite C; apply seq_NoDup|exact B|exact P|]. rewrite N1. exists (concat nss). split; [reflexivity|].
    assert (SB := split_by rc nss [] ltac:(cbn [length]; rewrite C, seq_length; reflexivity) N2). cbn [app] in SB.
    split; [rewrite <- (F2_concat_length _ _ N2), C, seq_length; reflexivity|]. split.
    - clear - SB N3. set (dd := concat nss) in *. clearbody dd. revert cnt N3. induction SB as [|cs ns rc1 nss1 E SB IH]; intros cnt N3; inversion N3; subst; [constructor|]. constructor; [reflexivity|]. apply IH. assumption.
    - intros c Hc. assert (IC : In c (concat rc)) by (rewrite C; apply in_seq; lia). apply in_concat in IC. destruct IC as (cs & Hcs & Hin).
      clear - SB N4 Hcs Hin. set (dd := concat nss) in *. clearbody dd. induction SB as [|cs1 ns1 rc1 nss1 E SB IH]; [contradiction|]. inversion N4; subst. destruct Hcs as [<-|Hcs]; [|auto].
      rename H2 into G. clear - G Hin. induction cs1 as [|x cs1 IH]; [contradiction|]. cbn [map] in G. inversion G; subst. destruct Hin as [<-|Hin]; auto.
  Qed.

  (** from the numbering of the regions *)
  Lemma para_nonzero g start lay lens far xy a p : number_region g start lay (Blocks lens far xy) = Some (a, Some p) -> existsb (Nat.eqb 0) lens = false.
  Proof.
    unfold number_region. cbv zeta. destruct xy as (X, Y). destruct ((length lens =? 1) || existsb (Nat.eqb 0) lens) eqn:E.
    - destruct (arangeF _ _ _); cbn; [intros [=]|discriminate].
    - intros _. apply orb_false_iff in E. apply E.
  Qed.
  Lemma swv0_optimized SIZE lays d fars xys g : 1 <= length lays -> Forall (fun lay => length lay = 3 /\ Forall (fun n => 1 <= n) lay) lays ->
    dis_swv0 mlf slf true SIZE (map prodl lays) = Some d ->
    let rc := region_cores SIZE (length lays) in
    let sc r := Blocks (map (at_core d) (nth r rc [])) (fars r) (xys r) in
    exists d', optimize mlf slf SIZE rc (fun r => match region_numbering g lays sc r with Some (_, p) => p | None => None end) d = Some d' /\
      (forall r, r < length lays -> exists a p, region_numbering g lays sc r = Some (a, p)) /\
      partition SIZE (sum (map prodl lays)) (element_ranges 0 d') /\
      (forall c, c < SIZE -> (1 <= at_core d c <-> 1 <= at_core d' c)) /\
      (forall c r, visits (element_ranges 0 d) (map prodl lays) c r <-> visits (element_ranges 0 d') (map prodl lays) c r) /\
      (forall c r1 r2, visits (element_ranges 0 d') (map prodl lays) c r1 -> visits (element_ranges 0 d') (map prodl lays) c r2 -> r1 = r2).
  Proof.
    intros HL HF E. destruct (swv0_ok mlf slf Hm Hs true SIZE (map prodl lays) d ltac:(rewrite map_length; exact HL) E) as (L & B & SU). rewrite map_length in B.
    assert (SZ : length lays <= SIZE).
    { unfold dis_swv0 in E. cbv zeta in E. rewrite map_length in E. destruct (Nat.leb_spec (length lays) SIZE); [assumption|]. rewrite andb_false_r in E. discriminate. }
    destruct (region_cores_concat SIZE (length lays) ltac:(lia)) as (C & LC). cbv zeta.
    set (rc := region_cores SIZE (length lays)) in *. set (sc := fun r => Blocks (map (at_core d) (nth r rc [])) (fars r) (xys r)).
    assert (NUM : forall r lay, nth_error lays r = Some lay -> exists a p, region_numbering g lays sc r = Some (a, p) /\ para_ok (prodl lay) p).
    { intros r lay Hr. unfold region_numbering. rewrite Hr. assert (HL3 := proj1 (Forall_forall _ _) HF lay (nth_error_In _ _ Hr)).
      assert (Hrr : r < length rc) by (rewrite LC; apply nth_error_Some; congruence).
      assert (LO : lens_ok (prodl lay) (sc r)).
      { unfold sc. cbn. split.
        - assert (Hp := region_cores_pos SIZE (length lays) (nth r rc []) ltac:(lia) (nth_In rc [] Hrr)). destruct (nth r rc []); [cbn in Hp; lia|discriminate].
        - clear - B Hr Hrr. clearbody rc. unfold by_region in B. revert r lays B Hr Hrr. induction rc as [|cs rc1 IH]; intros r lays B Hr Hrr; [cbn in Hrr; lia|]. inversion B as [|? n ? cc E1 E2 E3 E4]; subst.
          destruct lays as [|lay0 lays]; [discriminate|]. cbn [map] in E4. injection E4 as E4 E5. destruct r as [|r]; cbn [nth nth_error] in *.
          + injection Hr as <-. congruence.
          + subst cc. apply (IH r lays); auto. cbn in Hrr. lia. }
      destruct (number_region_ok (g r) (sum (map prodl (firstn r lays))) lay (sc r) (proj1 HL3) (proj2 HL3) LO) as (a & p & Q1 & _ & Q2). eauto. }
    destruct (optimize_ok SIZE rc (fun r => match region_numbering g lays sc r with Some (_, p) => p | None => None end) d (map prodl lays) C L B) as (d' & O1 & O2 & O3 & O4).
    { intros r cs n p Hr Hn Hp. rewrite nth_error_map in Hn. destruct (nth_error lays r) as [lay|] eqn:El; [|discriminate]. injection Hn as <-.
      destruct (NUM r lay El) as (a & p1 & N1 & N2). rewrite N1 in Hp. subst p1. split; [exact N2|].
      unfold region_numbering in N1. rewrite El in N1. unfold sc in N1. apply para_nonzero in N1. rewrite (nth_error_nth _ _ [] Hr) in N1.
      apply Forall_forall. intros c Hc. destruct (at_core d c) eqn:E0; [|lia].
      assert (T : existsb (Nat.eqb 0) (map (at_core d) cs) = true) by (apply existsb_exists; exists 0; split; [rewrite <- E0; apply in_map; exact Hc|reflexivity]). congruence. }
    assert (INV : forall dd c r, length dd = SIZE -> by_region rc dd (map prodl lays) -> visits (element_ranges 0 dd) (map prodl lays) c r ->
              1 <= at_core dd c /\ c < SIZE /\ exists cs, nth_error rc r = Some cs /\ In c cs).
    { intros dd c r Ld Bd (l & e & H1 & H2 & H3). assert (Hc : c < SIZE) by (rewrite <- Ld, <- (ranges_length 0 dd); apply nth_error_Some; congruence).
      assert (H1' := ranges_nth _ _ _ _ H1). split; [subst l; apply in_seq in H2; lia|]. split; [exact Hc|].
      assert (IC : In c (concat rc)) by (rewrite C; apply in_seq; lia). apply in_concat in IC. destruct IC as (cs & Hcs & Hin). apply In_nth_error in Hcs. destruct Hcs as (r' & Hr').
      assert (Q := core_in_region SIZE rc dd (map prodl lays) r' cs c e l C Ld Bd Hr' Hin H1 H2). unfold in_region in H3.
      assert (r' = r).
      { destruct (Nat.lt_trichotomy r r') as [G|[G|G]]; [|congruence|].
        - assert (A := PreludeProofs.sum_firstn_le (map prodl lays) (S r) r' G). lia.
        - assert (A := PreludeProofs.sum_firstn_le (map prodl lays) (S r') r G). lia. }
      subst r'. eauto. }
    assert (BACK : forall dd c r cs, length dd = SIZE -> by_region rc dd (map prodl lays) -> 1 <= at_core dd c -> c < SIZE -> nth_error rc r = Some cs -> In c cs -> visits (element_ranges 0 dd) (map prodl lays) c r).
    { intros dd c r cs Ld Bd H1 H2 H3 H4. assert (NE : nth_error (element_ranges 0 dd) c <> None) by (apply nth_error_Some; rewrite ranges_length; lia).
      destruct (nth_error (element_ranges 0 dd) c) as [l|] eqn:El; [|contradiction]. assert (El' := ranges_nth _ _ _ _ El).
      assert (Hin : In (0 + sum (firstn c dd)) l) by (subst l; apply in_seq; lia). exists l, (0 + sum (firstn c dd)). split; [exact El|]. split; [exact Hin|].
      exact (core_in_region SIZE rc dd (map prodl lays) r cs c _ l C Ld Bd H3 H4 El Hin). }
    exists d'. split; [exact O1|]. split.
    { intros r Hr. destruct (nth_error lays r) as [lay|] eqn:El; [|apply nth_error_None in El; lia]. destruct (NUM r lay El) as (a & p & N1 & _). eauto. }
    split; [apply ranges_ok; [exact O2|exact (by_region_sum SIZE rc d' _ C O2 O3)]|]. split; [exact O4|]. split.
    - intros c r. split; intros H.
      + destruct (INV d c r L B H) as (A1 & A2 & cs & A3 & A4). apply (BACK d' c r cs); auto. apply O4; assumption.
      + destruct (INV d' c r O2 O3 H) as (A1 & A2 & cs & A3 & A4). apply (BACK d c r cs); auto. apply O4; assumption.
    - intros c r1 r2 H1 H2. destruct (INV d' c r1 O2 O3 H1) as (_ & _ & cs1 & A1 & A2). destruct (INV d' c r2 O2 O3 H2) as (_ & _ & cs2 & B1 & B2).
      destruct (Nat.eq_dec r1 r2) as [e|N]; [exact e|exfalso].
      assert (ND : NoDup (concat rc)) by (rewrite C; apply seq_NoDup). clear - ND A1 A2 B1 B2 N. clearbody rc. revert r1 r2 A1 B1 N. induction rc as [|x rc1 IH]; intros r1 r2 A1 B1 N; [destruct r1; discriminate|].
      cbn [concat] in ND. assert (D : forall y, In y x -> In y (concat rc1) -> False).
      { clear - ND. induction x as [|z l IHl]; intros y Hy Hc; [contradiction|]. cbn in ND. inversion ND; subst. destruct Hy as [<-|Hy]; [|eauto]. apply H1. apply in_or_app. now right. }
      assert (ND1 : NoDup (concat rc1)) by (clear - ND; induction x as [|z l IHl]; [exact ND|apply IHl; cbn in ND; inversion ND; assumption]).
      destruct r1 as [|r1], r2 as [|r2]; cbn [nth_error] in *.
      + contradiction.
      + injection A1 as ->. apply (D c A2). apply in_concat. exists cs2. split; [exact (nth_error_In _ _ B1)|exact B2].
      + injection B1 as ->. apply (D c B2). apply in_concat. exists cs1. split; [exact (nth_error_In _ _ A1)|exact A2].
      + apply (IH ND1 r1 r2); auto.
  Qed.
End Opt.
Lemma auto_total mlf slf a equal rnd SIZE cnt m : 1 <= SIZE -> 1 <= length cnt -> (length cnt = 1 -> equal = true) -> (a = ArgNone \/ a = ArgDebug) ->
  decide_EDM a equal SIZE (length cnt) = Some m -> exists d, distribution mlf slf m equal rnd SIZE cnt = Some d.
Proof.
  intros H1 H2 He Ha E. assert (Q := auto_ok a equal SIZE (length cnt) m H1 H2 He Ha E). apply distribution_total; auto. destruct m; auto. contradiction.
Qed.
Lemma region_numbering_ok g lays sc r lay : nth_error lays r = Some lay -> length lay = 3 -> Forall (fun n => 1 <= n) lay -> lens_ok (prodl lay) (sc r) ->
  exists a para, region_numbering g lays sc r = Some (a, para) /\ shp a = lay /\
    bijective lay (sum (map prodl (firstn r lays))) (prodl lay) (at_ a) /\ increasing lay (at_ a).
Proof.
  intros El L3 P HL. unfold region_numbering. rewrite El. destruct (number_region_ok (g r) (sum (map prodl (firstn r lays))) lay (sc r) L3 P HL) as (a & para & Q & N & _).
  exists a, para. split; [exact Q|]. exact N.
Qed.
