(** Proofs about the serial and the distributed Arnoldi loop. *)
From Coq Require Import List Arith Bool Lia Ring.
From Verif Require Import Prelude PreludeProofs RingSum KrylovModel KrylovSpec BicProofs.
Import ListNotations.

Lemma upto_filter j P a n : upto j (filter P (seq a n)) = filter (fun i => P i && (i <=? j)) (seq a n).
Proof.
  revert a. induction n; intros a; [reflexivity|]. cbn [seq filter]. destruct (P a) eqn:E.
  - cbn [upto]. destruct (Nat.leb_spec a j); cbn [andb].
    + f_equal. apply IHn.
    + symmetry. clear IHn E. assert (G : forall m b, j < b -> filter (fun i => P i && (i <=? j)) (seq b m) = []).
      { induction m; intros b Hb; [reflexivity|]. cbn [seq filter]. destruct (Nat.leb_spec b j); [lia|].
        rewrite andb_false_r. apply IHm. lia. }
      apply G. lia.
  - cbn [andb]. apply IHn.
Qed.
Lemma first_index_nth l i d : In i l -> exists p, first_index (Nat.eqb i) l = Some p /\ p < length l /\ nth p l d = i.
Proof.
  induction l as [|a l IH]; [intros []|]. cbn [first_index]. destruct (Nat.eqb_spec i a) as [->|H].
  - intros _. exists 0. simpl. repeat split; lia.
  - intros [E|E]; [congruence|]. destruct (IH E) as (p & E1 & E2 & E3). exists (S p). rewrite E1. simpl. repeat split; auto; lia.
Qed.

Section Arnoldi.
  Variable K : CRing.
  Variable div : K -> K -> K.
  Add Ring Kr2 : (Rth K).
  Local Open Scope ring_s.
  Notation vec := (nat -> K).
  Notation mat := (nat -> nat -> K).
  Variables (SIZE n restart : nat).
  Hypothesis HS : (0 < SIZE)%nat.
  Variable prod : nat -> vec -> nat -> vec.
  Hypothesis prod_ext : forall j u v r, eqv K u v -> eqv K (prod j u r) (prod j v r).
  Variable norm : list K -> K.
  Notation local_ind := (local_ind SIZE restart).
  Notation local_pos := (local_pos SIZE restart).
  Notation serial_step := (serial_step K div SIZE n restart prod norm).
  Notation dist_step := (dist_step K div SIZE n restart prod norm).

  Lemma in_local_ind r i : In i (local_ind r) <-> (i < restart)%nat /\ i mod SIZE = r.
  Proof. unfold KrylovModel.local_ind. rewrite filter_In, in_seq, Nat.eqb_eq. lia. Qed.
  Lemma local_pos_inj r i j : In i (local_ind r) -> In j (local_ind r) -> local_pos r i = local_pos r j -> i = j.
  Proof.
    intros H1 H2. unfold KrylovModel.local_pos.
    destruct (first_index_nth _ i 0%nat H1) as (p & -> & _ & E1). destruct (first_index_nth _ j 0%nat H2) as (q & -> & _ & E2).
    congruence.
  Qed.
  Lemma vnorm_ext u v : eqv K u v -> vnorm K n norm u = vnorm K n norm v.
  Proof. intros H. unfold vnorm. f_equal. apply map_ext. exact H. Qed.

  (** one column of the Hessenberg matrix *)
  Lemma column_fold j (AVJ : vec) (row : nat -> vec) l : forall H acc,
    let R := fold_left (fun '(H, acc) i => let Hij := dot K n AVJ (row i) in (mset K H i j Hij, vplus K acc (vscale K Hij (row i)))) l (H, acc) in
    (forall i' j', fst R i' j' = if (j' =? j)%nat && existsb (Nat.eqb i') l then dot K n AVJ (row i') else H i' j') /\
    (forall q, snd R q = acc q + bsum l (fun i => dot K n AVJ (row i) * row i q)).
  Proof.
    induction l as [|a l IH]; intros H acc; cbv zeta.
    - cbn [fold_left fst snd existsb]. split; [intros; rewrite andb_false_r; reflexivity|intros; rewrite bsum_nil; ring].
    - cbn [fold_left]. specialize (IH (mset K H a j (dot K n AVJ (row a))) (vplus K acc (vscale K (dot K n AVJ (row a)) (row a)))).
      cbv zeta in IH. destruct IH as (I1 & I2). split.
      + intros i' j'. rewrite I1. cbn [existsb]. unfold mset.
        destruct (Nat.eqb_spec j' j); cbn [andb]; [|rewrite !andb_false_r; reflexivity].
        destruct (existsb (Nat.eqb i') l); [rewrite orb_true_r; reflexivity|]. rewrite orb_false_r, andb_true_r.
        destruct (Nat.eqb_spec i' a); [subst; reflexivity|reflexivity].
      + intros q. rewrite I2. unfold vplus, vscale. rewrite bsum_cons. ring.
  Qed.
  Lemma existsb_seq i m : existsb (Nat.eqb i) (seq 0 m) = (i <? m)%nat.
  Proof.
    apply eq_true_iff_eq. rewrite existsb_exists, Nat.ltb_lt. split.
    - intros (x & H1 & H2). apply in_seq in H1. apply Nat.eqb_eq in H2. lia.
    - intros H. exists i. rewrite in_seq, Nat.eqb_refl. split; [lia|reflexivity].
  Qed.
  Lemma existsb_local r j i : (j < restart)%nat -> existsb (Nat.eqb i) (upto j (local_ind r)) = (i mod SIZE =? r)%nat && (i <=? j)%nat.
  Proof.
    intros Hj. unfold KrylovModel.local_ind. rewrite upto_filter. apply eq_true_iff_eq.
    rewrite existsb_exists, andb_true_iff, Nat.eqb_eq, Nat.leb_le. split.
    - intros (x & H1 & H2). apply Nat.eqb_eq in H2. subst x. apply filter_In in H1. destruct H1 as (_ & H1).
      apply andb_prop in H1. destruct H1 as (A & B). apply Nat.eqb_eq in A. apply Nat.leb_le in B. auto.
    - intros (A & B). exists i. split; [|apply Nat.eqb_refl]. apply filter_In. rewrite in_seq. split; [lia|].
      apply andb_true_intro. split; [apply Nat.eqb_eq, A|apply Nat.leb_le, B].
  Qed.
  (** summing over the cores the indices each owns *)
  Lemma bsum_owned j (F : nat -> K) : (j < restart)%nat ->
    bsum (seq 0 SIZE) (fun r => bsum (upto j (local_ind r)) F) = bsum (seq 0 (S j)) F.
  Proof.
    intros Hj.
    rewrite (bsum_ext _ (seq 0 SIZE) _ (fun r => bsum (seq 0 restart) (fun i => if ((i mod SIZE =? r) && (i <=? j))%nat then F i else 0))).
    2:{ intros r _. unfold KrylovModel.local_ind. rewrite upto_filter. apply bsum_filter. }
    rewrite bsum_swap.
    rewrite (bsum_ext _ (seq 0 restart) _ (fun i => if (i <=? j)%nat then F i else 0)).
    2:{ intros i _. destruct (Nat.leb_spec i j).
        - rewrite (bsum_only _ (seq 0 SIZE) (i mod SIZE)).
          + rewrite Nat.eqb_refl. reflexivity.
          + apply seq_NoDup.
          + apply in_seq. split; [lia|]. simpl. apply Nat.mod_upper_bound. lia.
          + intros a _ Ha. destruct (Nat.eqb_spec (i mod SIZE) a); [congruence|reflexivity].
        - apply bsum_0. intros a _. rewrite andb_false_r. reflexivity. }
    replace restart with (S j + (restart - S j))%nat by lia. rewrite bsum_seq_split.
    rewrite (bsum_0 _ (seq 0 (restart - S j))).
    2:{ intros i _. destruct (Nat.leb_spec (S j + i) j); [lia|reflexivity]. }
    rewrite (bsum_ext _ (seq 0 (S j)) (fun i => if (i <=? j)%nat then F i else 0) F).
    2:{ intros i Hi. apply in_seq in Hi. destruct (Nat.leb_spec i j); [reflexivity|lia]. }
    ring.
  Qed.

  Definition INV (j : nat) (c : acores K) (st : (nat -> vec) * mat) : Prop :=
    (forall i, (i < restart)%nat -> (i <= j)%nat -> eqv K (Vmaster K c i) (fst st i)) /\
    ((j < restart)%nat -> forall r, eqv K (Vslave K c r) (fst st j)) /\
    (forall r i, r <> 0%nat -> (i < j)%nat -> In i (local_ind r) -> eqv K (Vs K c r (local_pos r i)) (fst st i)) /\
    only_owners K SIZE (Hm K c) /\
    (forall i j', bsum (seq 0 SIZE) (fun r => Hm K c r i j') = snd st i j').

  Lemma step_ok j c st : (j < restart)%nat -> INV j c st -> INV (S j) (dist_step c j) (serial_step st j).
  Proof.
    intros Hj (I1 & I2 & I3 & I4 & I5). destruct st as [V H]. cbn [fst snd] in *. specialize (I2 Hj).
    unfold KrylovModel.serial_step, serial_column.
    set (AVJ := reduce K SIZE (prod j (V j))).
    pose proof (column_fold j AVJ V (seq 0 (S j)) H (fun _ => 0)) as CF. cbv zeta in CF.
    destruct (fold_left _ (seq 0 (S j)) (H, fun _ => 0)) as [H1 acc] eqn:EF. cbn [fst snd] in CF. clear EF. destruct CF as (CH & CA).
    unfold KrylovModel.dist_step. cbv zeta.
    set (cur := fun r : nat => if (r =? 0)%nat then Vmaster K c j else Vslave K c r).
    set (Vs' := fun r : nat => if negb (r =? 0)%nat && existsb (Nat.eqb j) (local_ind r) then rset K (Vs K c r) (local_pos r j) (Vslave K c r) else Vs K c r).
    set (AVJ' := reduce K SIZE (fun r => prod j (cur r) r)).
    set (row := fun r i => if (r =? 0)%nat then Vmaster K c i else Vs' r (local_pos r i)).
    set (col := fun r => core_column K n j AVJ' (row r) (local_ind r) (Hm K c r)).
    assert (EA : eqv K AVJ' AVJ).
    { intros i. unfold AVJ', AVJ, reduce. apply bsum_ext. intros r _. apply prod_ext. unfold cur.
      destruct (Nat.eqb_spec r 0); [apply I1; lia|apply I2]. }
    assert (ER : forall r i, (i <= j)%nat -> In i (local_ind r) -> eqv K (row r i) (V i)).
    { intros r i Hi Li. unfold row. destruct (Nat.eqb_spec r 0) as [R0|R0]; [apply I1; lia|].
      unfold Vs'. destruct (Nat.eqb_spec r 0); [contradiction|]. cbn [negb andb].
      destruct (existsb (Nat.eqb j) (local_ind r)) eqn:EJ.
      - apply existsb_exists in EJ. destruct EJ as (x & X1 & X2). apply Nat.eqb_eq in X2. subst x.
        unfold rset. destruct (Nat.eqb_spec (local_pos r i) (local_pos r j)) as [E|E].
        + apply local_pos_inj in E; [|exact Li|exact X1]. subst i. apply I2.
        + apply I3; auto. destruct (Nat.eq_dec i j); [subst; contradiction|lia].
      - apply I3; auto. destruct (Nat.eq_dec i j); [subst|lia].
        exfalso. assert (existsb (Nat.eqb j) (local_ind r) = true); [|congruence].
        apply existsb_exists. exists j. split; [exact Li|apply Nat.eqb_refl]. }
    assert (CF : forall r, (forall i' j', fst (col r) i' j' = if (j' =? j)%nat && ((i' mod SIZE =? r)%nat && (i' <=? j)%nat) then dot K n AVJ' (row r i') else Hm K c r i' j') /\
      (forall q, snd (col r) q = bsum (upto j (local_ind r)) (fun i => dot K n AVJ (V i) * V i q))).
    { intros r. unfold col, core_column.
      pose proof (column_fold j AVJ' (row r) (upto j (local_ind r)) (Hm K c r) (fun _ => 0)) as (C1 & C2). split.
      - intros i' j'. rewrite C1, existsb_local by exact Hj. reflexivity.
      - intros q. rewrite C2. transitivity (bsum (upto j (local_ind r)) (fun i => dot K n AVJ' (row r i) * row r i q)); [ring|].
        apply bsum_ext. intros i Hi.
        assert (G : (i <= j)%nat /\ In i (local_ind r)).
        { unfold KrylovModel.local_ind in Hi. rewrite upto_filter in Hi. apply filter_In in Hi. destruct Hi as (A & B).
          apply andb_prop in B. destruct B as (B1 & B2). apply Nat.leb_le in B2. split; [exact B2|]. apply filter_In. auto. }
        destruct G as (G1 & G2). rewrite (ER r i G1 G2 q). f_equal. apply dot_ext; [exact EA|apply ER; assumption]. }
    set (SUM := reduce K SIZE (fun r => snd (col r))).
    assert (ESUM : eqv K SUM acc).
    { intros q. unfold SUM, reduce. rewrite CA.
      rewrite (bsum_ext _ (seq 0 SIZE) _ (fun r => bsum (upto j (local_ind r)) (fun i => dot K n AVJ (V i) * V i q))).
      2:{ intros r _. apply CF. }
      rewrite bsum_owned by exact Hj. ring. }
    set (hat := vminus K AVJ acc). set (hat' := vminus K AVJ' SUM).
    assert (EH : eqv K hat' hat) by (intros q; unfold hat', hat, vminus; rewrite EA, ESUM; reflexivity).
    assert (EN : vnorm K n norm hat' = vnorm K n norm hat) by (apply vnorm_ext, EH).
    set (nh := vnorm K n norm hat) in *.
    set (H' := fun r : nat => if (r =? 0)%nat then mset K (fst (col 0%nat)) (S j) j (vnorm K n norm hat') else fst (col r)).
    assert (HH : forall r i j', H' r i j' = if (r =? 0)%nat && ((i =? S j)%nat && (j' =? j)%nat) then nh
        else if (j' =? j)%nat && ((i mod SIZE =? r)%nat && (i <=? j)%nat) then dot K n AVJ' (row r i) else Hm K c r i j').
    { intros r i j'. unfold H'. destruct (Nat.eqb_spec r 0) as [->|R]; cbn [andb].
      - unfold mset. rewrite EN. destruct ((i =? S j)%nat && (j' =? j)%nat); [reflexivity|]. apply CF.
      - apply CF. }
    (* the invariant for H' *)
    assert (NO : only_owners K SIZE H').
    { intros r i j' Hr Ho. rewrite HH. pose proof (I4 r i j' Hr Ho) as OLD. unfold owner in Ho.
      destruct (Nat.eqb_spec j' j) as [->|J]; cbn [andb]; [|rewrite !andb_false_r; exact OLD].
      rewrite andb_true_r. destruct (Nat.eqb_spec i (S j)) as [->|I].
      - destruct (Nat.eqb_spec r 0); [congruence|]. destruct (Nat.leb_spec (S j) j); [lia|]. rewrite andb_false_r. exact OLD.
      - rewrite andb_false_r. destruct (Nat.eqb_spec (i mod SIZE) r); [congruence|exact OLD]. }
    assert (SUMH : forall i j', bsum (seq 0 SIZE) (fun r => H' r i j') = mset K H1 (S j) j nh i j').
    { intros i j'. unfold mset. rewrite CH, existsb_seq.
      destruct (Nat.eqb_spec j' j) as [->|J].
      - rewrite andb_true_r. destruct (Nat.eqb_spec i (S j)) as [->|I].
        + rewrite (bsum_only _ (seq 0 SIZE) 0%nat).
          * rewrite HH, !Nat.eqb_refl. reflexivity.
          * apply seq_NoDup.
          * apply in_seq. lia.
          * intros r Hr N0. apply NO; [apply in_seq in Hr; lia|]. unfold owner. rewrite Nat.eqb_refl. exact N0.
        + cbn [andb]. assert (IM : (i mod SIZE < SIZE)%nat) by (apply Nat.mod_upper_bound; lia).
          destruct (Nat.ltb_spec i (S j)) as [L|L].
          * rewrite (bsum_only _ (seq 0 SIZE) (i mod SIZE)).
            -- rewrite HH, !Nat.eqb_refl. destruct (Nat.eqb_spec i (S j)); [lia|]. rewrite andb_false_r.
               destruct (Nat.leb_spec i j); [|lia]. cbn [andb]. apply dot_ext; [exact EA|]. apply ER; [lia|].
               apply in_local_ind. split; [lia|reflexivity].
            -- apply seq_NoDup.
            -- apply in_seq. lia.
            -- intros r Hr N0. apply NO; [apply in_seq in Hr; lia|]. unfold owner. destruct (Nat.eqb_spec i (S j)); [lia|exact N0].
          * rewrite <- I5. apply bsum_ext. intros r _. rewrite HH. destruct (Nat.eqb_spec i (S j)); [lia|].
            destruct (Nat.leb_spec i j); [lia|]. rewrite !andb_false_r. reflexivity.
      - rewrite andb_false_r. cbn [andb]. rewrite <- I5. apply bsum_ext. intros r _. rewrite HH.
        destruct (Nat.eqb_spec j' j); [contradiction|]. rewrite !andb_false_r. reflexivity. }
    assert (VS3 : forall r i, r <> 0%nat -> (i < S j)%nat -> In i (local_ind r) -> eqv K (Vs' r (local_pos r i)) (V i)).
    { intros r i R0 Hi Li. specialize (ER r i ltac:(lia) Li). unfold row in ER. destruct (Nat.eqb_spec r 0); [contradiction|exact ER]. }
    destruct (Nat.ltb_spec j (restart - 1)) as [L|L].
    - unfold INV. cbn [fst snd Vmaster Vslave Vs Hm].
      assert (EV : eqv K (normalise K div hat' (vnorm K n norm hat')) (normalise K div hat nh))
        by (intros q; unfold normalise; rewrite EH, EN; reflexivity).
      split; [|split; [|split; [|split]]].
      + intros i Hi Lj. unfold rset. destruct (Nat.eqb_spec i (S j)); [exact EV|apply I1; lia].
      + intros _ r. unfold rset. rewrite Nat.eqb_refl. exact EV.
      + intros r i R0 Hi Li. unfold rset. destruct (Nat.eqb_spec i (S j)); [lia|]. apply VS3; assumption.
      + exact NO.
      + exact SUMH.
    - unfold INV. cbn [fst snd Vmaster Vslave Vs Hm].
      split; [|split; [|split; [|split]]].
      + intros i Hi Lj. apply I1; lia.
      + lia.
      + exact VS3.
      + exact NO.
      + exact SUMH.
  Qed.

  Lemma loop_ok c st : forall m j, (j + m <= restart)%nat -> INV j c st ->
    INV (j + m) (fold_left dist_step (seq j m) c) (fold_left serial_step (seq j m) st).
  Proof.
    intros m. revert c st. induction m; intros c st j H I.
    - rewrite Nat.add_0_r. exact I.
    - cbn [seq fold_left]. replace (j + S m)%nat with (S j + m)%nat by lia. apply IHm; [lia|]. apply step_ok; [lia|exact I].
  Qed.

  Lemma arnoldi_ok v0 c V H : only_owners K SIZE (Hm K c) ->
    (forall i j, reduced_H K SIZE c i j = H i j) ->
    let c' := dist K div SIZE n restart prod norm v0 c in
    let st' := serial K div SIZE n restart prod norm v0 V H in
    (forall i, (i < restart)%nat -> eqv K (Vmaster K c' i) (fst st' i)) /\
    (forall i j, reduced_H K SIZE c' i j = snd st' i j) /\ only_owners K SIZE (Hm K c').
  Proof.
    intros H1 H2. cbv zeta.
    pose proof (loop_ok (mkA K (rset K (Vmaster K c) 0 v0) (fun _ => v0) (Vs K c) (Hm K c)) (rset K V 0 v0, H) restart 0 ltac:(lia)) as L.
    destruct L as (A & _ & _ & D & E).
    - unfold INV. cbn [fst snd Vmaster Vslave Vs Hm]. split; [|split; [|split; [|split]]].
      + intros i _ Hi q. replace i with 0%nat by lia. reflexivity.
      + intros _ r q. reflexivity.
      + lia.
      + exact H1.
      + exact H2.
    - split; [|split].
      + intros i Hi. apply A; lia.
      + exact E.
      + exact D.
  Qed.

  (** consecutive cycles, from the zero matrices *)
  Lemma cycles_ok vs : forall c V H, only_owners K SIZE (Hm K c) -> (forall i j, reduced_H K SIZE c i j = H i j) ->
    let c' := fold_left (fun c v0 => dist K div SIZE n restart prod norm v0 c) vs c in
    let st' := fold_left (fun st v0 => serial K div SIZE n restart prod norm v0 (fst st) (snd st)) vs (V, H) in
    (forall i, (i < restart)%nat -> vs <> [] -> eqv K (Vmaster K c' i) (fst st' i)) /\
    (forall i j, reduced_H K SIZE c' i j = snd st' i j).
  Proof.
    induction vs as [|v0 vs IH]; intros c V H H1 H2; cbv zeta.
    - cbn [fold_left]. split; [intros; contradiction|exact H2].
    - cbn [fold_left fst snd]. destruct (arnoldi_ok v0 c V H H1 H2) as (A1 & A2 & A3).
      destruct (serial K div SIZE n restart prod norm v0 V H) as [V' H'] eqn:ES. cbn [fst snd] in *.
      destruct vs as [|v1 vs]; [cbn [fold_left]; split; [intros i Hi _; apply A1, Hi|exact A2]|].
      destruct (IH _ V' H' A3 A2) as (B1 & B2). split; [|exact B2]. intros i Hi _. apply B1; [exact Hi|discriminate].
  Qed.
  Lemma cycles_from_zero vs Vm0 Vsl Vs0 V : vs <> [] ->
    let c' := fold_left (fun c v0 => dist K div SIZE n restart prod norm v0 c) vs (mkA K Vm0 Vsl Vs0 (fun _ _ _ => r0)) in
    let st' := fold_left (fun st v0 => serial K div SIZE n restart prod norm v0 (fst st) (snd st)) vs (V, fun _ _ => r0) in
    (forall i q, (i < restart)%nat -> Vmaster K c' i q = fst st' i q) /\
    (forall i j, reduced_H K SIZE c' i j = snd st' i j).
  Proof.
    intros NE. cbv zeta. destruct (cycles_ok vs (mkA K Vm0 Vsl Vs0 (fun _ _ _ => r0)) V (fun _ _ => r0)) as (A & B).
    - intros r i j _ _. reflexivity.
    - intros i j. unfold reduced_H. cbn [Hm]. apply bsum_0. reflexivity.
    - split; [intros i q Hi; apply A; assumption|exact B].
  Qed.
End Arnoldi.
Section Instances.
  Variable K : CRing.
  Variable div : K -> K -> K.
  Lemma gmres_ext n (A : nat -> nat -> nat -> K) (j : nat) u v (r : nat) : eqv K u v -> eqv K (mulv K n (A r) u) (mulv K n (A r) v).
  Proof. apply mulv_ext. Qed.
  Lemma lgmres_ext n m (A : nat -> nat -> nat -> K) (z : nat -> nat -> nat -> K) (j : nat) u v (r : nat) : eqv K u v ->
    eqv K (if (j <? m)%nat then mulv K n (A r) u else z j r) (if (j <? m)%nat then mulv K n (A r) v else z j r).
  Proof. intros H. destruct (j <? m)%nat; [apply mulv_ext, H|intros i; reflexivity]. Qed.
End Instances.
