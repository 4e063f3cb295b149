(** Proofs for C18 and C19: assembling is the scatter sum, for every history of the lockers. *)
From Coq Require Import List Arith ZArith Bool Lia.
From Verif Require Import Prelude PreludeProofs RingSum AssembleModel AssembleProofs GatherModel EwcModel AsmModel AsmSpec.
Import ListNotations.

Lemma combine_app {A B} (a a' : list A) (b b' : list B) : length a = length b ->
  combine (a ++ a') (b ++ b') = combine a b ++ combine a' b'.
Proof. revert b. induction a; intros [|y b] L; simpl in *; try discriminate; [reflexivity|]. f_equal. apply IHa. lia. Qed.

Lemma enum_nth {A} (l : list A) i x : In (i, x) (enumerate l) <-> nth_error l i = Some x.
Proof.
  unfold enumerate. assert (G : forall s, In (s + i, x) (combine (seq s (length l)) l) <-> nth_error l i = Some x).
  { revert i. induction l as [|y l IH]; intros i s; simpl.
    - destruct i; split; easy.
    - destruct i as [|i].
      + rewrite Nat.add_0_r. simpl. split; intros H.
        * destruct H as [H|H]; [congruence|]. apply in_combine_l in H. apply in_seq in H. lia.
        * left. congruence.
      + specialize (IH i (S s)). replace (S s + i) with (s + S i) in IH by lia. simpl. rewrite <- IH. split; intros H; auto.
        destruct H as [H|H]; auto. injection H as H _. lia. }
  apply (G 0).
Qed.

Lemma map_fst_enum {A} (l : list A) : map fst (enumerate l) = seq 0 (length l).
Proof.
  unfold enumerate. generalize 0. induction l; intros s; simpl; [reflexivity|]. f_equal. apply IHl.
Qed.

Lemma enum_app {A} (a b : list A) : enumerate (a ++ b) = enumerate a ++ map (fun p => (length a + fst p, snd p)) (enumerate b).
Proof.
  unfold enumerate. rewrite app_length, seq_app, combine_app by (rewrite seq_length; reflexivity). f_equal.
  generalize (length a). intros n. assert (G : forall s, combine (seq (n + s) (length b)) b =
    map (fun p => (n + fst p, snd p)) (combine (seq s (length b)) b)).
  { induction b; intros s; simpl; [reflexivity|]. f_equal. replace (S (n + s)) with (n + S s) by lia. apply IHb. }
  rewrite Nat.add_comm. apply (G 0).
Qed.

Lemma bsum_enum {K : CRing} {A} (l : list A) (f : nat -> A -> K) d :
  bsum (enumerate l) (fun p => f (fst p) (snd p)) = bsum (seq 0 (length l)) (fun i => f i (nth i l d)).
Proof.
  unfold enumerate. assert (G : forall s, bsum (combine (seq s (length l)) l) (fun p => f (fst p) (snd p)) =
     bsum (seq s (length l)) (fun i => f i (nth (i - s) l d))).
  { induction l as [|x l IH]; intros s; simpl; [reflexivity|]. rewrite !bsum_cons. cbn [fst snd]. rewrite IH, Nat.sub_diag. f_equal.
    apply bsum_ext. intros i Hi. apply in_seq in Hi. f_equal. replace (i - s) with (S (i - S s)) by lia. reflexivity. }
  rewrite G. apply bsum_ext. intros i _. rewrite Nat.sub_0_r. reflexivity.
Qed.

Section AsmP.
  Variable K : CRing.
  Add Ring Kring : (Rth K).
  Local Open Scope ring_s.

  Notation hit a b := (fun t : nat * nat * K => if (fst (fst t) =? a) && (snd (fst t) =? b) then snd t else 0).

  Lemma take_ok G idx : Forall (fun i => i < length G)%nat idx -> take G idx = Some (map (fun i => nth i G O) idx).
  Proof.
    induction 1 as [|i idx L _ IH]; [reflexivity|]. unfold take in *. simpl. rewrite IH.
    destruct (nth_error G i) eqn:E; [|apply nth_error_None in E; lia]. rewrite (nth_error_nth _ _ O E). reflexivity.
  Qed.

  Lemma csc_cols_ok gi gj cols : forall j, (forall col p, In col cols -> In p col -> fst p < length gi)%nat ->
    (j + length cols <= length gj)%nat ->
    csc_cols K gi gj j cols = Some (concat (map (fun jc => map (fun p => (nth (fst p) gi O, nth (fst jc) gj O)) (snd jc)) (combine (seq j (length cols)) cols))).
  Proof.
    induction cols as [|col cols IH]; intros j H L; [reflexivity|]. cbn [csc_cols length] in *.
    rewrite take_ok by (apply Forall_forall; intros i Hi; apply in_map_iff in Hi; destruct Hi as (p & <- & Ip); apply (H col); simpl; auto).
    destruct (nth_error gj j) eqn:E; [|apply nth_error_None in E; lia].
    rewrite IH; [|intros; apply (H col0); simpl; auto|lia]. simpl. rewrite !map_map. rewrite (nth_error_nth _ _ O E). reflexivity.
  Qed.
  Lemma csr_rows_ok gi gj rows : forall j, (forall row p, In row rows -> In p row -> fst p < length gj)%nat ->
    (j + length rows <= length gi)%nat ->
    csr_rows K gi gj j rows = Some (concat (map (fun jc => map (fun p => (nth (fst jc) gi O, nth (fst p) gj O)) (snd jc)) (combine (seq j (length rows)) rows))).
  Proof.
    induction rows as [|row rows IH]; intros j H L; [reflexivity|]. cbn [csr_rows length] in *.
    rewrite take_ok by (apply Forall_forall; intros i Hi; apply in_map_iff in Hi; destruct Hi as (p & <- & Ip); apply (H row); simpl; auto).
    destruct (nth_error gi j) eqn:E; [|apply nth_error_None in E; lia].
    rewrite IH; [|intros; apply (H row0); simpl; auto|lia]. simpl. rewrite !map_map. rewrite (nth_error_nth _ _ O E). reflexivity.
  Qed.

  Lemma bsum_zip (l : list (list (nat * K))) (h : nat -> nat * K -> nat * nat) (F : nat * nat * K -> K) : forall j,
    bsum (combine (concat (map (fun jc => map (h (fst jc)) (snd jc)) (combine (seq j (length l)) l))) (map snd (concat l))) F =
    bsum (combine (seq j (length l)) l) (fun jc => bsum (snd jc) (fun p => F (h (fst jc) p, snd p))).
  Proof.
    induction l as [|x l IH]; intros j; [reflexivity|]. cbn [length seq combine map concat].
    rewrite map_app, combine_app by (rewrite !map_length; reflexivity). rewrite bsum_app, bsum_cons, IH. f_equal.
    cbn [fst snd]. clear. induction x as [|p x IH]; [reflexivity|]. simpl. rewrite !bsum_cons, IH. reflexivity.
  Qed.
  Lemma length_zip (l : list (list (nat * K))) (h : nat -> nat * K -> nat * nat) : forall j,
    length (concat (map (fun jc => map (h (fst jc)) (snd jc)) (combine (seq j (length l)) l))) = length (map snd (concat l)).
  Proof.
    induction l as [|x l IH]; intros j; [reflexivity|]. cbn [length seq combine map concat].
    rewrite map_app, !app_length, IH, !map_length. reflexivity.
  Qed.

  Lemma pick_enum (G : list nat) i (x : K) (P : nat -> bool) : (i < length G)%nat ->
    bsum (enumerate G) (fun p => if P (snd p) then (if i =? fst p then x else 0) else 0) = if P (nth i G O) then x else 0.
  Proof.
    intros L. rewrite (bsum_enum G (fun k y => if P y then (if i =? k then x else 0) else 0) O).
    rewrite (bsum_only _ (seq 0 (length G)) i).
    - rewrite Nat.eqb_refl. reflexivity.
    - apply seq_NoDup.
    - apply in_seq. lia.
    - intros k _ N. destruct (P _); [|reflexivity]. destruct (Nat.eqb_spec i k); [congruence|reflexivity].
  Qed.

  Lemma scat_rows gi gj f a b : scat K gi gj f a b =
    bsum (seq 0 (length gi)) (fun i => bsum (seq 0 (length gj)) (fun j => if (nth i gi O =? a) && (nth j gj O =? b) then f i j else 0)).
  Proof.
    unfold scat. rewrite (bsum_enum gi (fun i x => bsum (enumerate gj) (fun q => if (x =? a) && (snd q =? b) then f i (fst q) else 0)) O).
    apply bsum_ext. intros i _. rewrite (bsum_enum gj (fun j x => if (nth i gi O =? a) && (x =? b) then f i j else 0) O). reflexivity.
  Qed.

  Lemma rowcol_ok gi gj M : valid K M -> shape M = (length gi, length gj) ->
    exists rc, rowcol K gi gj M = Some rc /\ length rc = length (data K M) /\
      Forall (fun p => In (fst p) gi /\ In (snd p) gj) rc /\
      forall a b, bsum (combine rc (data K M)) (hit a b) = scat K gi gj (entry M) a b.
  Proof.
    destruct M as [rows|nc rows|nr cols]; intros V SH; simpl in V, SH; [destruct V| |].
    - injection SH as L1 L2. subst nc. eexists. split; [apply csr_rows_ok; [exact V|lia]|]. split; [|split].
      + apply length_zip with (h := fun j p => (nth j gi O, nth (fst p) gj O)).
      + apply Forall_forall. intros [x y] I. apply in_concat in I. destruct I as (l & I & I').
        apply in_map_iff in I. destruct I as ((j & row) & <- & I). apply in_map_iff in I'. destruct I' as (p & E & Ip). injection E as <- <-.
        cbn [fst snd] in *. pose proof (in_combine_r _ _ _ _ I) as I2. apply in_combine_l, in_seq in I.
        split; apply nth_In; [lia|eapply V; eassumption].
      + intros a b. cbn [data]. rewrite bsum_zip with (h := fun j p => (nth j gi O, nth (fst p) gj O)). cbn [fst snd].
        rewrite scat_rows. rewrite <- L1.
        transitivity (bsum (enumerate rows) (fun p => bsum (snd p) (fun q => if (nth (fst p) gi O =? a) && (nth (fst q) gj O =? b) then snd q else 0))); [reflexivity|].
        rewrite (bsum_enum rows (fun i r => bsum r (fun q => if (nth i gi O =? a) && (nth (fst q) gj O =? b) then snd q else 0)) []).
        apply bsum_ext. intros i Hi. apply in_seq in Hi. cbn [entry].
        transitivity (bsum (seq 0 (length gj)) (fun j => bsum (nth i rows []) (fun q => if (nth i gi O =? a) && (nth j gj O =? b) then (if fst q =? j then snd q else 0) else 0))).
        2:{ apply bsum_ext. intros j _. destruct ((nth i gi O =? a) && (nth j gj O =? b)); [reflexivity|apply bsum_0; reflexivity]. }
        rewrite bsum_swap. apply bsum_ext. intros q Iq.
        assert (Lq : (fst q < length gj)%nat) by (eapply V; [apply nth_In|exact Iq]; lia).
        rewrite (bsum_only _ (seq 0 (length gj)) (fst q)); [rewrite Nat.eqb_refl; reflexivity|apply seq_NoDup|apply in_seq; lia|].
        intros j _ NE. destruct ((nth i gi O =? a) && _); [|reflexivity]. destruct (Nat.eqb_spec (fst q) j); congruence.
    - injection SH as L1 L2. subst nr. eexists. split; [apply csc_cols_ok; [exact V|lia]|]. split; [|split].
      + apply length_zip with (h := fun j p => (nth (fst p) gi O, nth j gj O)).
      + apply Forall_forall. intros [x y] I. apply in_concat in I. destruct I as (l & I & I').
        apply in_map_iff in I. destruct I as ((j & col) & <- & I). apply in_map_iff in I'. destruct I' as (p & E & Ip). injection E as <- <-.
        cbn [fst snd] in *. pose proof (in_combine_r _ _ _ _ I) as I2. apply in_combine_l, in_seq in I.
        split; apply nth_In; [eapply V; eassumption|lia].
      + intros a b. cbn [data]. rewrite bsum_zip with (h := fun j p => (nth (fst p) gi O, nth j gj O)). cbn [fst snd].
        rewrite scat_rows, bsum_swap. rewrite <- L2.
        transitivity (bsum (enumerate cols) (fun p => bsum (snd p) (fun q => if (nth (fst q) gi O =? a) && (nth (fst p) gj O =? b) then snd q else 0))); [reflexivity|].
        rewrite (bsum_enum cols (fun i r => bsum r (fun q => if (nth (fst q) gi O =? a) && (nth i gj O =? b) then snd q else 0)) []).
        apply bsum_ext. intros j Hj. apply in_seq in Hj. cbn [entry].
        transitivity (bsum (seq 0 (length gi)) (fun i => bsum (nth j cols []) (fun q => if (nth i gi O =? a) && (nth j gj O =? b) then (if fst q =? i then snd q else 0) else 0))).
        2:{ apply bsum_ext. intros i _. destruct ((nth i gi O =? a) && (nth j gj O =? b)); [reflexivity|apply bsum_0; reflexivity]. }
        rewrite bsum_swap. apply bsum_ext. intros q Iq.
        assert (Lq : (fst q < length gi)%nat) by (eapply V; [apply nth_In|exact Iq]; lia).
        rewrite (bsum_only _ (seq 0 (length gi)) (fst q)); [rewrite Nat.eqb_refl; reflexivity|apply seq_NoDup|apply in_seq; lia|].
        intros i _ NE. destruct ((nth i gi O =? a) && _); [|reflexivity]. destruct (Nat.eqb_spec (fst q) i); congruence.
  Qed.

  Definition rc_fine (g : gathering) (rc : list (nat * nat)) (dat : list K) : Prop :=
    length rc = length dat /\ Forall (fun p => fst p < DEP g /\ snd p < WID g)%nat rc.

  Lemma spa_ok g rc dat : rc_fine g rc dat -> exists A, spa K (DEP g) (WID g) rc dat = Some A /\
    forall a b, A a b = bsum (combine rc dat) (hit a b).
  Proof.
    intros (L & F). unfold spa. rewrite L, Nat.eqb_refl. replace (forallb _ rc) with true.
    - eexists. split; [reflexivity|]. reflexivity.
    - symmetry. apply forallb_forall. intros p Hp. rewrite Forall_forall in F. apply F in Hp. apply andb_true_iff. rewrite !Nat.ltb_lt. assumption.
  Qed.

  Lemma fits_rowcol g e M : fits K g (e, M) -> exists gi gj rc, GI g e = Some gi /\ GJ g e = Some gj /\ rowcol K gi gj M = Some rc /\
    rc_fine g rc (data K M) /\ forall a b, bsum (combine rc (data K M)) (hit a b) = scat K gi gj (entry M) a b.
  Proof.
    intros (V & gi & gj & E1 & E2 & SH & F1 & F2). destruct (rowcol_ok gi gj M V SH) as (rc & E & L & F & S').
    exists gi, gj, rc. repeat split; try assumption. rewrite Forall_forall in *. intros p Hp. destruct (F p Hp). auto.
  Qed.

  Lemma rc_fine_app g rc dat rc' dat' : rc_fine g rc dat -> rc_fine g rc' dat' -> rc_fine g (rc ++ rc') (dat ++ dat').
  Proof. intros (L & F) (L' & F'). split; [rewrite !app_length; congruence|apply Forall_app; auto]. Qed.

  Lemma default_loop_ok LIMIT g mats : Forall (fits K g) mats -> forall A rc dat, rc_fine g rc dat ->
    exists B, default_loop K LIMIT g mats A rc dat = Some B /\
      forall a b, B a b = A a b + (bsum (combine rc dat) (hit a b) + sum_of K g mats a b).
  Proof.
    induction 1 as [|[e M] mats F _ IH]; intros A rc dat RF; cbn [default_loop].
    - destruct (spa_ok _ _ _ RF) as (B & -> & EB). eexists. split; [reflexivity|]. intros a b. unfold gplus. rewrite EB. unfold sum_of. rewrite bsum_nil. ring.
    - destruct (fits_rowcol _ _ _ F) as (gi & gj & new & E1 & E2 & EN & RF' & ES). cbn [fst snd]. rewrite E1, E2, EN.
      pose proof (rc_fine_app _ _ _ _ _ RF RF') as RF2.
      assert (EQ : forall a b, bsum (combine (rc ++ new) (dat ++ data K M)) (hit a b) = bsum (combine rc dat) (hit a b) + scat K gi gj (entry M) a b).
      { intros a b. destruct RF. rewrite combine_app, bsum_app, ES by assumption. reflexivity. }
      assert (ST : forall a b, sum_of K g ((e, M) :: mats) a b = scat K gi gj (entry M) a b + sum_of K g mats a b).
      { intros a b. unfold sum_of. rewrite bsum_cons. cbn [fst snd]. rewrite E1, E2. reflexivity. }
      destruct (_ <? _).
      + destruct (spa_ok _ _ _ RF2) as (B & -> & EB).
        destruct (IH (gplus K A B) [] []) as (C & -> & EC); [split; [reflexivity|constructor]|].
        exists C. split; [reflexivity|]. intros a b. rewrite EC. unfold gplus. rewrite EB, EQ, ST. cbn [combine]. rewrite bsum_nil. ring.
      + destruct (IH A _ _ RF2) as (C & -> & EC). exists C. split; [reflexivity|]. intros a b. rewrite EC, EQ, ST. ring.
  Qed.

  Lemma rc_loop_ok g mats : Forall (fits K g) mats -> exists rc, rc_loop K g mats = Some rc /\
    rc_fine g rc (concat (map (fun m => data K (snd m)) mats)) /\
    forall a b, bsum (combine rc (concat (map (fun m => data K (snd m)) mats))) (hit a b) = sum_of K g mats a b.
  Proof.
    induction 1 as [|[e M] mats F _ IH]; cbn [rc_loop].
    - exists []. repeat split. constructor.
    - destruct IH as (rc & -> & RF & EQ). destruct (fits_rowcol _ _ _ F) as (gi & gj & new & E1 & E2 & EN & RF' & ES).
      rewrite E1, E2, EN. eexists. split; [reflexivity|]. cbn [map concat snd]. split; [apply rc_fine_app; assumption|].
      intros a b. destruct RF'. rewrite combine_app, bsum_app, ES, EQ by assumption. unfold sum_of. rewrite bsum_cons. cbn [fst snd]. rewrite E1, E2. reflexivity.
  Qed.

  (** patterns determine rows and columns *)
  Lemma csc_cols_pattern gi gj c1 : forall c2 j, map (map (@fst nat K)) c1 = map (map fst) c2 -> csc_cols K gi gj j c1 = csc_cols K gi gj j c2.
  Proof.
    induction c1 as [|x c1 IH]; intros [|y c2] j E; simpl in E; try discriminate; [reflexivity|]. injection E as E1 E2.
    simpl. rewrite E1, (IH c2) by assumption. reflexivity.
  Qed.
  Lemma csr_rows_pattern gi gj c1 : forall c2 j, map (map (@fst nat K)) c1 = map (map fst) c2 -> csr_rows K gi gj j c1 = csr_rows K gi gj j c2.
  Proof.
    induction c1 as [|x c1 IH]; intros [|y c2] j E; simpl in E; try discriminate; [reflexivity|]. injection E as E1 E2.
    simpl. rewrite E1, (IH c2) by assumption. reflexivity.
  Qed.
  Lemma rowcol_pattern gi gj M1 M2 : valid K M1 -> valid K M2 -> pattern K M1 = pattern K M2 -> rowcol K gi gj M1 = rowcol K gi gj M2.
  Proof.
    destruct M1, M2; simpl; intros V1 V2 E; try destruct V1; try destruct V2; try discriminate; injection E as _ E.
    - apply csr_rows_pattern. assumption.
    - apply csc_cols_pattern. assumption.
  Qed.
  Lemma rc_loop_pattern g g' m m' : Forall (fits K g) m -> Forall (fits K g') m' -> same_pattern K (g, m) (g', m') -> rc_loop K g m = rc_loop K g' m'.
  Proof.
    intros F F' (_ & _ & EP & EG). cbn [fst snd] in *. revert m' EP F' EG. induction F as [|[e M] m Fx F IH]; intros [|[e' M'] m'] EP F' EG; simpl in EP; try discriminate; [reflexivity|].
    injection EP as -> EP1 EP2. inversion F' as [|? ? Fx' F'']; subst. cbn [rc_loop].
    destruct (EG e') as [-> ->]; [simpl; auto|]. destruct (GI g' e') as [gi|]; [|reflexivity]. destruct (GJ g' e') as [gj|]; [|reflexivity].
    destruct Fx as [V _], Fx' as [V' _]. cbn [snd] in *. rewrite (rowcol_pattern gi gj M M') by assumption.
    rewrite (IH m'); auto. intros e I. apply EG. simpl. auto.
  Qed.

  (** * histories *)
  Definition final (LIMIT : nat) (evs : list (aevent K)) : asm K := fold_left (astep K LIMIT) evs (asm0 K).

  Definition lockedS (evs : list (aevent K)) : Prop := exists pre1 pre2, evs = pre1 ++ LockS K :: pre2 /\ ~ In (UnlockS K) pre2.

  Definition ginv (evs : list (aevent K)) (st : asm K) : Prop :=
    locker K st = fst (fold_left (frozen_step K) evs (false, None)) /\
    (slocker K st = true -> lockedS evs) /\
    match AMC K st with
    | None => frozen K evs = None
    | Some A => exists g m, frozen K evs = Some (g, m) /\ forall a b, A a b = sum_of K g m a b
    end /\
    match rc_cache K st with
    | None => True
    | Some rc => exists pre g m mid, evs = pre ++ Assemble K g m :: mid /\ ~ In (UnlockS K) mid /\ lockedS evs /\ rc_loop K g m = Some rc /\
                   slocker K st = true
    end.

  Lemma fold_snoc {A B} (f : A -> B -> A) l x a : fold_left f (l ++ [x]) a = f (fold_left f l a) x.
  Proof. rewrite fold_left_app. reflexivity. Qed.

  Lemma assemble_ok LIMIT evs st g m : ginv evs st -> all_fit K (evs ++ [Assemble K g m]) -> keeps_pattern K (evs ++ [Assemble K g m]) ->
    (exists A, fst (assemble K LIMIT g m st) = Some A /\
      forall a b, A a b = match frozen K evs with Some (g', m') => sum_of K g' m' a b | None => sum_of K g m a b end) /\
    ginv (evs ++ [Assemble K g m]) (snd (assemble K LIMIT g m st)).
  Proof.
    intros (IL & IS & IA & IR) AF KP. unfold assemble.
    assert (Fm : Forall (fits K g) m) by (apply AF; apply in_or_app; right; left; reflexivity).
    assert (LS : forall t, slocker K t = slocker K st -> slocker K t = true -> lockedS (evs ++ [Assemble K g m])).
    { intros t E1 E2. destruct IS as (p1 & p2 & -> & N); [congruence|]. exists p1, (p2 ++ [Assemble K g m]). split; [rewrite <- app_assoc; reflexivity|].
      intros I. apply in_app_or in I. destruct I as [I|[I|[]]]; [tauto|discriminate]. }
    assert (FR : forall f, f = fold_left (frozen_step K) (evs ++ [Assemble K g m]) (false, None) ->
       fst f = fst (fold_left (frozen_step K) evs (false, None)) /\ snd f = match frozen K evs with None => if fst (fold_left (frozen_step K) evs (false, None)) then Some (g, m) else None | x => x end).
    { intros f ->. rewrite fold_snoc. split; reflexivity. }
    assert (RX : forall rc, (exists pre g0 m0 mid, evs = pre ++ Assemble K g0 m0 :: mid /\ ~ In (UnlockS K) mid /\ lockedS evs /\ rc_loop K g0 m0 = Some rc /\ slocker K st = true) ->
       (exists pre g0 m0 mid, evs ++ [Assemble K g m] = pre ++ Assemble K g0 m0 :: mid /\ ~ In (UnlockS K) mid /\ lockedS (evs ++ [Assemble K g m]) /\ rc_loop K g0 m0 = Some rc /\ slocker K st = true)).
    { intros rc (pre & g0 & m0 & mid & -> & N & L & E & ES). exists pre, g0, m0, (mid ++ [Assemble K g m]). repeat split; try assumption.
      - rewrite <- app_assoc. reflexivity.
      - intros I. apply in_app_or in I. destruct I as [I|[I|[]]]; [tauto|discriminate].
      - apply (LS st); auto. }
    destruct (AMC K st) as [A|] eqn:EA.
    - destruct IA as (g' & m' & EF & EAS). cbn [fst snd]. split.
      + exists A. split; [reflexivity|]. intros a b. rewrite EF. apply EAS.
      + destruct (FR _ eq_refl) as [F1 F2]. split; [congruence|]. split; [apply LS; reflexivity|]. rewrite EA. split.
        * exists g', m'. unfold frozen at 1. rewrite F2, EF. auto.
        * destruct (rc_cache K st); auto.
    - assert (DR : exists A st', default_routine K LIMIT g m st = (Some A, st') /\ (forall a b, A a b = sum_of K g m a b) /\
         locker K st' = locker K st /\ slocker K st' = slocker K st /\ AMC K st' = AMC K st /\
         match rc_cache K st' with None => True
         | Some rc => exists pre g0 m0 mid, evs ++ [Assemble K g m] = pre ++ Assemble K g0 m0 :: mid /\ ~ In (UnlockS K) mid /\ lockedS (evs ++ [Assemble K g m]) /\ rc_loop K g0 m0 = Some rc /\ slocker K st = true end).
      { unfold default_routine. destruct (slocker K st) eqn:ES.
        - destruct (rc_cache K st) as [rc|] eqn:ER.
          + pose proof (RX rc IR) as RX'. destruct IR as (pre & g0 & m0 & mid & EV & N & L & E & _).
            assert (SP : same_pattern K (g0, m0) (g, m)).
            { apply (KP pre g0 m0 mid g m []); [rewrite EV, <- app_assoc; reflexivity|assumption|]. rewrite <- EV. exact L. }
            assert (F0 : Forall (fits K g0) m0) by (apply AF; rewrite EV; apply in_or_app; left; apply in_or_app; right; left; reflexivity).
            rewrite (rc_loop_pattern g0 g m0 m) in E by assumption.
            destruct (rc_loop_ok g m Fm) as (rc' & E' & RF & EQ). rewrite E in E'. injection E' as <-.
            destruct (spa_ok _ _ _ RF) as (A & -> & EAA). exists A, st. repeat split; auto.
            * intros a b. rewrite EAA. apply EQ.
            * rewrite ER. exact RX'.
          + destruct (rc_loop_ok g m Fm) as (rc & E & RF & EQ). rewrite E. destruct (spa_ok _ _ _ RF) as (A & -> & EAA).
            eexists A, _. split; [reflexivity|]. repeat split; auto.
            * intros a b. rewrite EAA. apply EQ.
            * cbn [rc_cache]. exists evs, g, m, []. repeat split; auto. apply (LS st); auto.
        - destruct (default_loop_ok LIMIT g m Fm (fun _ _ => 0) [] []) as (B & -> & EB); [split; [reflexivity|constructor]|].
          exists B, st. repeat split; auto.
          + intros a b. rewrite EB. cbn [combine]. rewrite bsum_nil. ring.
          + destruct (rc_cache K st) as [rc|] eqn:ER; [|exact I]. apply RX. exact IR. }
      destruct DR as (A & st' & -> & EAS & E1 & E2 & E3 & E4). cbn [fst snd]. split.
      + exists A. split; [reflexivity|]. intros a b. rewrite IA. apply EAS.
      + destruct (FR _ eq_refl) as [F1 F2]. unfold ginv. cbn [locker slocker AMC rc_cache]. split; [congruence|]. split; [apply LS; assumption|]. split.
        * unfold frozen. rewrite F2, IA, <- IL, <- E1. destruct (locker K st'); [exists g, m; auto|]. rewrite E3, EA. reflexivity.
        * rewrite E2. exact E4.
  Qed.

  Lemma all_fit_app e1 e2 : all_fit K (e1 ++ e2) -> all_fit K e1.
  Proof. intros H g m I. apply H. apply in_or_app. auto. Qed.
  Lemma keeps_app e1 e2 : keeps_pattern K (e1 ++ e2) -> keeps_pattern K e1.
  Proof.
    intros H pre g m mid g' m' post -> N L. apply (H pre g m mid g' m' (post ++ e2)); auto.
    rewrite <- app_assoc. simpl. rewrite <- app_assoc. reflexivity.
  Qed.

  Lemma lockedS_snoc evs ev : lockedS evs -> ev <> UnlockS K -> lockedS (evs ++ [ev]).
  Proof.
    intros (p1 & p2 & -> & N) NE. exists p1, (p2 ++ [ev]). split; [rewrite <- app_assoc; reflexivity|].
    intros I. apply in_app_or in I. destruct I as [I|[I|[]]]; congruence.
  Qed.

  Lemma ginv_run LIMIT evs : all_fit K evs -> keeps_pattern K evs -> ginv evs (final LIMIT evs).
  Proof.
    unfold final. induction evs as [|ev evs IH] using rev_ind; intros AF KP.
    - repeat split; simpl; auto. discriminate.
    - specialize (IH (all_fit_app _ _ AF) (keeps_app _ _ KP)). rewrite fold_snoc. set (st := fold_left _ evs _) in *.
      assert (RX : forall rc, ev <> UnlockS K -> (exists pre g0 m0 mid, evs = pre ++ Assemble K g0 m0 :: mid /\ ~ In (UnlockS K) mid /\ lockedS evs /\ rc_loop K g0 m0 = Some rc /\ slocker K st = true) ->
       (exists pre g0 m0 mid, evs ++ [ev] = pre ++ Assemble K g0 m0 :: mid /\ ~ In (UnlockS K) mid /\ lockedS (evs ++ [ev]) /\ rc_loop K g0 m0 = Some rc /\ slocker K st = true)).
      { intros rc NE (pre & g0 & m0 & mid & EV & N & L & E & ES). exists pre, g0, m0, (mid ++ [ev]). repeat split; try assumption.
        - rewrite EV, <- app_assoc. reflexivity.
        - intros I. apply in_app_or in I. destruct I as [I|[I|[]]]; congruence.
        - apply lockedS_snoc; assumption. }
      destruct ev as [| | | |g m]; cbn [astep].
      5:{ apply (assemble_ok LIMIT evs st g m IH AF KP). }
      all: destruct IH as (IL & IS & IA & IR); unfold ginv, frozen; cbn [locker slocker AMC rc_cache]; rewrite fold_snoc; cbn [frozen_step fst snd].
      + split; [reflexivity|]. split; [intros; apply lockedS_snoc; [auto|discriminate]|]. split; [exact IA|].
        destruct (rc_cache K st); [|exact I]. apply RX; [discriminate|assumption].
      + split; [reflexivity|]. split; [intros; apply lockedS_snoc; [auto|discriminate]|]. split; [reflexivity|].
        destruct (rc_cache K st); [|exact I]. apply RX; [discriminate|assumption].
      + split; [assumption|]. split; [intros _; exists evs, []; split; [reflexivity|easy]|]. split; [exact IA|].
        destruct (rc_cache K st); [|exact I]. destruct (RX l) as (pre & g0 & m0 & mid & H1 & H2 & H3 & H4 & _); [discriminate|assumption|].
        exists pre, g0, m0, mid. auto.
      + split; [assumption|]. split; [discriminate|]. split; [exact IA|exact I].
  Qed.

  Theorem assembly_ok LIMIT evs g m : all_fit K (evs ++ [Assemble K g m]) -> keeps_pattern K (evs ++ [Assemble K g m]) ->
    exists A, fst (assemble K LIMIT g m (final LIMIT evs)) = Some A /\
      forall a b, A a b = match frozen K evs with Some (g', m') => sum_of K g' m' a b | None => sum_of K g m a b end.
  Proof.
    intros AF KP. apply (assemble_ok LIMIT evs); auto. apply ginv_run; [eapply all_fit_app|eapply keeps_app]; eassumption.
  Qed.

  (** * vectors *)
  Theorem vassembly_ok n G vs : Forall (vfits K n G) vs -> exists A, assemble_vec K n G vs = Some A /\ forall a, A a = vsum_of K G vs a.
  Proof.
    intros F. unfold assemble_vec.
    assert (H : exists rd, vec_loop K G vs = Some rd /\ Forall (fun p => fst p < n)%nat rd /\
      forall a, bsum rd (fun p => if fst p =? a then snd p else 0) = vsum_of K G vs a).
    { induction F as [|[e col] vs (gi & EG & Fc & Fg) _ (rd & E & Fr & ES)]; cbn [vec_loop]; [exists []; auto|].
      cbn [fst snd] in *. rewrite EG. rewrite take_ok by (rewrite Forall_map; exact Fc). rewrite E. rewrite map_map. eexists. split; [reflexivity|]. split.
      - apply Forall_app. split; [|assumption]. apply Forall_forall. intros [x y] I. apply in_combine_l, in_map_iff in I. destruct I as (p & <- & Ip).
        rewrite Forall_forall in Fg, Fc. apply Fg, nth_In, Fc, Ip.
      - intros a. rewrite bsum_app, ES. unfold vsum_of. rewrite bsum_cons. cbn [fst snd]. rewrite EG. f_equal.
        unfold vscat, ventry.
        transitivity (bsum col (fun p => if nth (fst p) gi O =? a then snd p else 0)).
        { clear. induction col as [|p col IH]; [reflexivity|]. simpl. rewrite !bsum_cons, IH. reflexivity. }
        transitivity (bsum (enumerate gi) (fun p => bsum col (fun q => if snd p =? a then (if fst q =? fst p then snd q else 0) else 0))).
        2:{ apply bsum_ext. intros p _. destruct (snd p =? a); [reflexivity|apply bsum_0; reflexivity]. }
        rewrite bsum_swap. apply bsum_ext. intros q Iq. rewrite pick_enum with (P := fun x => x =? a); [reflexivity|].
        rewrite Forall_forall in Fc. auto. }
    destruct H as (rd & -> & Fr & ES). replace (forallb _ rd) with true.
    - eexists. split; [reflexivity|]. exact ES.
    - symmetry. apply forallb_forall. intros p Hp. rewrite Forall_forall in Fr. apply Nat.ltb_lt. auto.
  Qed.
End AsmP.
