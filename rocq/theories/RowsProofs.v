(** Proofs for C20-C22: customizations naming rows of the assembled objects. *)
From Coq Require Import List Arith ZArith Bool Lia Sorting.Sorted.
From Verif Require Import Prelude PreludeProofs RingSum AssembleModel AssembleProofs GatherModel GatherSpec GatherProofs FindProofs
  EwcModel EwcProofs VCusProofs AsmModel AsmSpec AsmProofs.
Import ListNotations.

Lemma all_some_map {A B} (f : A -> option B) l : (forall x, In x l -> f x <> None) ->
  exists m, all_some (map f l) = Some m /\ length m = length l /\ forall i x, nth_error l i = Some x -> nth_error m i = f x.
Proof.
  induction l as [|x l IH]; intros H; simpl.
  - exists []. repeat split. intros [|i]; discriminate.
  - destruct (f x) as [y|] eqn:E; [|exfalso; apply (H x); simpl; auto].
    destruct IH as (m & -> & L & P); [intros; apply H; simpl; auto|]. exists (y :: m). simpl. split; [reflexivity|]. split; [lia|].
    intros [|i] z Ez; simpl in *; [injection Ez as <-; auto|]. apply P. assumption.
Qed.

Lemma dget_register {X} (d : list (nat * list X)) e c e' :
  dget (register _ d e c) e' = dget d e' ++ (if e =? e' then [c] else []).
Proof.
  unfold dget. induction d as [|[f cs] d IH]; simpl.
  - rewrite (Nat.eqb_sym e' e). destruct (Nat.eqb_spec e e'); reflexivity.
  - destruct (Nat.eqb_spec f e) as [->|NE]; simpl.
    + rewrite (Nat.eqb_sym e' e). destruct (Nat.eqb_spec e e'); [reflexivity|]. rewrite app_nil_r. reflexivity.
    + destruct (Nat.eqb_spec e' f) as [->|N']; [|exact IH]. destruct (Nat.eqb_spec e f); [congruence|]. rewrite app_nil_r. reflexivity.
Qed.

Definition ops_for {X} (l : list (nat * X)) (e : nat) : list X := map snd (filter (fun p => fst p =? e) l).

Lemma dget_register_fold {X} (l : list (nat * X)) : forall d e,
  dget (fold_left (fun d ec => register _ d (fst ec) (snd ec)) l d) e = dget d e ++ ops_for l e.
Proof.
  induction l as [|[f c] l IH]; intros d e; simpl.
  - unfold ops_for. simpl. rewrite app_nil_r. reflexivity.
  - rewrite IH, dget_register, <- app_assoc. f_equal. unfold ops_for. simpl. destruct (f =? e); reflexivity.
Qed.

Lemma ops_none {X} (l : list (nat * X)) e : ~ In e (map fst l) -> ops_for l e = [].
Proof.
  intros H. unfold ops_for. induction l as [|[f c] l IH]; [reflexivity|]. simpl in *. destruct (Nat.eqb_spec f e); [tauto|]. apply IH. tauto.
Qed.
Lemma ops_one {X} (l : list (nat * X)) e c : NoDup (map fst l) -> In (e, c) l -> ops_for l e = [c].
Proof.
  intros N I. unfold ops_for. induction l as [|[f d] l IH]; [destruct I|]. simpl in *. inversion N; subst. destruct I as [E|I].
  - injection E as -> ->. rewrite Nat.eqb_refl. simpl. f_equal. apply (ops_none l). assumption.
  - destruct (Nat.eqb_spec f e) as [->|NE]; [|auto]. exfalso. apply H1. apply in_map_iff. exists (e, c). auto.
Qed.

Lemma lookup_In {X} (l : list (nat * X)) e x : lookup Nat.eqb e l = Some x -> In (e, x) l.
Proof.
  induction l as [|[f y] l IH]; simpl; [discriminate|]. destruct (Nat.eqb_spec e f) as [->|]; [intros E; injection E as ->; auto|auto].
Qed.
Lemma lookup_some {X} (l : list (nat * X)) e : In e (map fst l) -> exists x, lookup Nat.eqb e l = Some x.
Proof.
  induction l as [|[f y] l IH]; simpl; [tauto|]. destruct (Nat.eqb_spec e f) as [->|]; eauto. intros [E|I]; [congruence|auto].
Qed.

Lemma map_fst_combine {A B} (a : list A) (b : list B) : length a = length b -> map fst (combine a b) = a.
Proof. revert b. induction a; intros [|y b] L; simpl in *; try discriminate; [reflexivity|]. f_equal. apply IHa. lia. Qed.
Lemma map_fst_map {A B C} (f : A * B -> C) (l : list (A * B)) : map fst (map (fun p => (fst p, f p)) l) = map fst l.
Proof. rewrite map_map. reflexivity. Qed.

Section Found.
  Variables (SIZE : nat) (gms : list GMat) (ns : list nat).
  Hypothesis WN : well_numbered SIZE gms ns.
  Hypothesis RG : forall g, In g gms -> regular g.
  Variables (N : option nat) (m : Z).
  Hypothesis Rm : (- Z.of_nat (sum ns) <= m < Z.of_nat (sum ns))%Z.
  Notation M := (row_of (sum ns) m).
  Hypothesis CAP : within_cap SIZE gms N M.

  Lemma found_entry r : r < SIZE ->
    match CGM_find SIZE gms r N m with
    | Raised => False
    | NotFound => forall e v, CGM_getitem SIZE gms Silly r e = Some v -> ~ In M v
    | Found (E, Is) => E <> [] /\ NoDup E /\ length E = length Is /\
        (forall e i, In (e, i) (combine E Is) -> exists v, CGM_getitem SIZE gms Silly r e = Some v /\ nth_error v i = Some M) /\
        forall e v, CGM_getitem SIZE gms Silly r e = Some v -> In M v -> In e E
    end.
  Proof.
    intros Hr. assert (N0 : N <> Some 0).
    { intros ->. destruct CAP. lia. }
    pose proof (CGM_find_spec _ _ _ WN RG r N m Hr N0 Rm) as H. cbv zeta in H. fold (row_of (sum ns) m) in H.
    destruct (CGM_find SIZE gms r N m) as [| |[E Is]]; [assumption|assumption|].
    destruct H as (NE & ND & F2 & C). assert (L : length E = length Is) by (clear - F2; induction F2; simpl; congruence).
    split; [assumption|]. split; [assumption|]. split; [assumption|]. split.
    - clear - F2. induction F2 as [|e i E Is (v & H1 & H2 & _) _ IH]; simpl; [tauto|]. intros e' i' [X|X]; [|auto]. injection X as <- <-. eauto.
    - intros e v Hg HM. destruct N as [n|]; [|eauto]. destruct C as [Ln C]. destruct (Nat.lt_ge_cases (length E) n) as [LL|LL]; [eauto|].
      destruct (in_dec Nat.eq_dec e E) as [I|I]; [assumption|]. exfalso. destruct CAP as [_ CC].
      assert (length (e :: E) <= n); [|simpl in *; lia]. apply (CC r); [assumption|constructor; assumption|].
      intros e' [<-|I']; [eauto|]. clear - F2 I'. induction F2 as [|x i E Is (v & H1 & H2 & _) _ IH]; [destruct I'|].
      destruct I' as [->|I']; [|auto]. exists v. split; [assumption|]. eapply nth_error_In; eassumption.
  Qed.

  (** which local rows (dofs) are found on core r *)
  Definition found_list (f : option (list nat * list nat)) : list (nat * nat) :=
    match f with Some (E, Is) => combine E Is | None => [] end.

  Lemma finds_ok : exists fs, finds SIZE gms N m = Some fs /\ forall r, r < SIZE ->
    NoDup (map fst (found_list (found_at fs r))) /\
    (forall e i, In (e, i) (found_list (found_at fs r)) -> exists v, CGM_getitem SIZE gms Silly r e = Some v /\ nth_error v i = Some M) /\
    (forall e v, CGM_getitem SIZE gms Silly r e = Some v -> In M v -> In e (map fst (found_list (found_at fs r)))) /\
    match CGM_find SIZE gms r N m with Found x => found_at fs r = Some x | _ => found_at fs r = None end /\
    match found_at fs r with Some (E, Is) => length E = length Is | None => True end.
  Proof.
    unfold finds. destruct (all_some_map (fun r => match CGM_find SIZE gms r N m with Raised => None | NotFound => Some None | Found x => Some (Some x) end) (seq 0 SIZE)) as (fs & E & L & P).
    { intros r Hr. apply in_seq in Hr. pose proof (found_entry r ltac:(lia)) as H. destruct (CGM_find SIZE gms r N m); [destruct H|discriminate|discriminate]. }
    exists fs. split; [exact E|]. intros r Hr. specialize (P r r). rewrite nth_error_nth' with (d := 0) in P by (rewrite seq_length; lia).
    rewrite seq_nth in P by lia. specialize (P eq_refl). pose proof (found_entry r Hr) as H.
    destruct (CGM_find SIZE gms r N m) as [| |[E' Is]]; [destruct H| |].
    - unfold found_at. rewrite (nth_error_nth _ _ None P). cbn [found_list map]. split; [constructor|]. split; [intros e i []|]. split; [|auto].
      intros e v H1 H2. exfalso. eapply H; eassumption.
    - unfold found_at. rewrite (nth_error_nth _ _ None P). cbn [found_list]. destruct H as (_ & ND & LE & H1 & H2). rewrite map_fst_combine by assumption. auto.
  Qed.
End Found.

Section Rows.
  Variable K : CRing.
  Add Ring Kring2 : (Rth K).
  Local Open Scope ring_s.
  Variables (SIZE : nat) (rgms cgms : list GMat) (ns ms : list nat).
  Hypothesis WN : well_numbered SIZE rgms ns.
  Hypothesis WM : well_numbered SIZE cgms ms.
  Hypothesis SC : same_cores SIZE (nth 0 rgms []) (nth 0 cgms []).
  Notation rv := (CGM_getitem SIZE rgms Silly). Notation cv := (CGM_getitem SIZE cgms Silly).
  Notation els r := (elements (nth 0 rgms []) r).

  Lemma rv_some r e : r < SIZE -> In e (els r) -> exists gi, rv r e = Some gi.
  Proof. intros Hr He. rewrite (silly_value _ _ _ WN r e Hr He). eauto. Qed.
  Lemma cv_some r e : r < SIZE -> In e (els r) -> exists gj, cv r e = Some gj.
  Proof. intros Hr He. rewrite (silly_value _ _ _ WM r e Hr); [eauto|]. apply SC; assumption. Qed.

  (** shapes are kept *)
  Lemma zero_rows_shape rs M M' : zero_rows K 0 rs M = Some M' -> nrow K M' = nrow K M /\ ncol K M' = ncol K M.
  Proof. unfold zero_rows. destruct (forallb _ rs); [|discriminate]. intros E; injection E as <-. auto. Qed.
  Lemma set_ent_shape i j v M M' : set_ent K i j v M = Some M' -> nrow K M' = nrow K M /\ ncol K M' = ncol K M.
  Proof. unfold set_ent. destruct (_ && _); [|discriminate]. intros E; injection E as <-. auto. Qed.
  Lemma set_ents_shape ps v : forall M M', set_ents K ps v M = Some M' -> nrow K M' = nrow K M /\ ncol K M' = ncol K M.
  Proof.
    induction ps as [|[i j] ps IH]; intros M M' E; simpl in E; [injection E as <-; auto|].
    destruct (set_ent K i j v M) as [M1|] eqn:E1; [|discriminate]. apply set_ent_shape in E1. apply IH in E. intuition congruence.
  Qed.
  Lemma apply_shape c M M' : apply_cusop K 0 1 c M = Some M' -> nrow K M' = nrow K M /\ ncol K M' = ncol K M.
  Proof.
    destruct c; simpl.
    - apply zero_rows_shape.
    - apply zero_rows_shape.
    - apply set_ent_shape.
    - destruct (zero_rows K 0 rs M) as [M1|] eqn:E1; [|discriminate]. intros E. apply zero_rows_shape in E1. apply set_ents_shape in E. intuition congruence.
    - destruct (_ =? _); [|discriminate].
      destruct (zero_rows K 0 rs M) as [M1|] eqn:E1; [|discriminate]. intros E. apply zero_rows_shape in E1. apply set_ents_shape in E. intuition congruence.
  Qed.
  Notation app_all := (apply_all (lmat K) (cusop K) (apply_cusop K 0 1)).
  Lemma apply_all_shape cs : forall M M', app_all cs M = Some M' -> nrow K M' = nrow K M /\ ncol K M' = ncol K M.
  Proof.
    induction cs as [|c cs IH]; intros M M' E; simpl in E; [injection E as <-; auto|].
    destruct (apply_cusop K 0 1 c M) as [M1|] eqn:E1; [|discriminate]. apply apply_shape in E1. apply IH in E. intuition congruence.
  Qed.
  Lemma apply_all_app cs cs' M : app_all (cs ++ cs') M = match app_all cs M with Some M' => app_all cs' M' | None => None end.
  Proof.
    revert M. induction cs as [|c cs IH]; intros M; simpl; [reflexivity|]. destruct (apply_cusop K 0 1 c M); [apply IH|reflexivity].
  Qed.

  Lemma scat_ext gi gj f f' a b : (forall i j, i < length gi -> j < length gj -> nth i gi O = a -> nth j gj O = b -> f i j = f' i j)%nat ->
    scat K gi gj f a b = scat K gi gj f' a b.
  Proof.
    intros H. rewrite !scat_rows. apply bsum_ext. intros i Hi. apply bsum_ext. intros j Hj. apply in_seq in Hi. apply in_seq in Hj.
    destruct (Nat.eqb_spec (nth i gi O) a) as [E1|]; [|reflexivity]. destruct (Nat.eqb_spec (nth j gj O) b) as [E2|]; [|reflexivity]. simpl. apply H; lia || assumption.
  Qed.
  Lemma scat_none gi gj f a b : ~ In a gi \/ ~ In b gj -> scat K gi gj f a b = 0.
  Proof.
    intros H. rewrite scat_rows. apply bsum_0. intros i Hi. apply bsum_0. intros j Hj. apply in_seq in Hi. apply in_seq in Hj.
    destruct (Nat.eqb_spec (nth i gi O) a) as [E1|]; [|reflexivity]. destruct (Nat.eqb_spec (nth j gj O) b) as [E2|]; [|reflexivity].
    exfalso. destruct H as [H|H]; apply H; subst; apply nth_In; lia.
  Qed.
  Lemma scat_zero gi gj a b : scat K gi gj (fun _ _ => 0) a b = 0.
  Proof. rewrite scat_rows. apply bsum_0. intros i _. apply bsum_0. intros j _. destruct (_ && _); reflexivity. Qed.

  (** one more customization per element *)
  Lemma cus_step (base : nat -> nat -> lmat K) (cus cus' : cdict K) (ops : nat -> nat -> list (cusop K)) (F : nat -> nat -> nat -> nat -> K -> K) A :
    sizes_match K SIZE rgms cgms base ->
    (forall r e, r < SIZE -> dget (cus' r) e = dget (cus r) e ++ ops r e)%nat ->
    (forall r e gi gj M, (r < SIZE)%nat -> In e (els r) -> rv r e = Some gi -> cv r e = Some gj ->
       nrow K M = length gi -> ncol K M = length gj ->
       exists M', app_all (ops r e) M = Some M' /\ forall a b, scat K gi gj (ent K M') a b = F r e a b (scat K gi gj (ent K M) a b)) ->
    assembled K SIZE rgms cgms base cus A ->
    exists S : nat -> nat -> nat -> nat -> K,
      (forall a b, A a b = bsum (seq 0 SIZE) (fun r => bsum (els r) (fun e => S r e a b))) /\
      (forall r e a b, (r < SIZE)%nat -> In e (els r) -> S r e a b <> 0 -> exists gi gj, rv r e = Some gi /\ cv r e = Some gj /\ In a gi /\ In b gj) /\
      assembled K SIZE rgms cgms base cus' (fun a b => bsum (seq 0 SIZE) (fun r => bsum (els r) (fun e => F r e a b (S r e a b)))).
  Proof.
    intros SM HD HO (Ms & HM & HA).
    exists (fun r e a b => match rv r e, cv r e with Some gi, Some gj => scat K gi gj (ent K (Ms r e)) a b | _, _ => 0 end).
    split; [exact HA|]. split.
    { intros r e a b Hr He NZ. destruct (rv_some r e Hr He) as [gi E1], (cv_some r e Hr He) as [gj E2]. rewrite E1, E2 in NZ.
      exists gi, gj. repeat split; try assumption.
      - destruct (in_dec Nat.eq_dec a gi); [assumption|]. exfalso. apply NZ. apply scat_none. auto.
      - destruct (in_dec Nat.eq_dec b gj); [assumption|]. exfalso. apply NZ. apply scat_none. auto. }
    assert (NEW : forall r e, (r < SIZE)%nat -> In e (els r) -> exists gi gj M', rv r e = Some gi /\ cv r e = Some gj /\ local_matrix K base cus' r e = Some M' /\
      forall a b, scat K gi gj (ent K M') a b = F r e a b (scat K gi gj (ent K (Ms r e)) a b)).
    { intros r e Hr He. destruct (rv_some r e Hr He) as [gi E1], (cv_some r e Hr He) as [gj E2]. pose proof (HM r e Hr He) as EM.
      unfold local_matrix in *. destruct (SM r e gi gj E1 E2) as [S1 S2]. destruct (apply_all_shape _ _ _ EM) as [S3 S4].
      destruct (HO r e gi gj (Ms r e) Hr He E1 E2) as (M' & EM' & ES); [congruence|congruence|].
      exists gi, gj, M'. repeat split; try assumption. rewrite HD, apply_all_app, EM by assumption. exact EM'. }
    exists (fun r e => match local_matrix K base cus' r e with Some M => M | None => base r e end). split.
    - intros r e Hr He. destruct (NEW r e Hr He) as (gi & gj & M' & _ & _ & -> & _). reflexivity.
    - intros a b. apply bsum_ext. intros r Hr. apply in_seq in Hr. apply bsum_ext. intros e He.
      destruct (NEW r e ltac:(lia) He) as (gi & gj & M' & -> & -> & -> & ES). symmetry. apply ES.
  Qed.

  Lemma assembled_ext base cus A A' : (forall a b, A a b = A' a b) -> assembled K SIZE rgms cgms base cus A -> assembled K SIZE rgms cgms base cus A'.
  Proof. intros E (Ms & H1 & H2). exists Ms. split; [assumption|]. intros a b. rewrite <- E. apply H2. Qed.

  Hypothesis RG : forall g, In g rgms -> regular g.
  Hypothesis RM : forall g, In g cgms -> regular g.

  Section Clear.
    Variables (N : option nat) (m : Z).
    Hypothesis Rm : (- Z.of_nat (sum ns) <= m < Z.of_nat (sum ns))%Z.
    Notation M := (row_of (sum ns) m).
    Hypothesis CAP : within_cap SIZE rgms N M.
    Hypothesis ONCE : once SIZE rgms M.

    Lemma clear_ok cus : exists cus', clear_global_row K SIZE rgms N m cus = Some cus' /\
      forall base A, sizes_match K SIZE rgms cgms base -> assembled K SIZE rgms cgms base cus A ->
        assembled K SIZE rgms cgms base cus' (fun a b => if a =? M then 0 else A a b).
    Proof.
      destruct (finds_ok _ _ _ WN RG N m Rm CAP) as (fs & EF & HF). unfold clear_global_row. rewrite EF. eexists. split; [reflexivity|].
      intros base A SM HA. set (L := fun r => map (fun p => (fst p, @clr K (snd p))) (found_list (found_at fs r))).
      assert (HL : forall r e i, (r < SIZE)%nat -> In (e, i) (found_list (found_at fs r)) -> ops_for (L r) e = [@clr K i]).
      { intros r e i Hr I. destruct (HF r Hr) as (ND & _). apply ops_one.
        - unfold L. rewrite map_map. exact ND.
        - apply in_map_iff. exists (e, i). auto. }
      destruct (cus_step base cus (fun r => match found_at fs r with None => cus r | Some (E, Is) => register_all K (cus r) (map (fun p => (fst p, @clr K (snd p))) (combine E Is)) end)
        (fun r e => ops_for (L r) e) (fun r e a b x => if a =? M then 0 else x) A SM) as (S & E1 & _ & E2); [| |exact HA|].
      - intros r e Hr. unfold L. destruct (found_at fs r) as [[E Is]|].
        + apply dget_register_fold.
        + unfold ops_for. simpl. rewrite app_nil_r. reflexivity.
      - intros r e gi gj X Hr He Eg Ej S1 S2. destruct (HF r Hr) as (ND & H1 & H2 & _).
        destruct (in_dec Nat.eq_dec e (map fst (found_list (found_at fs r)))) as [I|I].
        + apply in_map_iff in I. destruct I as ((e' & i) & <- & I). cbn [fst] in *. rewrite (HL r e' i Hr I).
          destruct (H1 e' i I) as (v & Ev & Ei). rewrite Eg in Ev. injection Ev as <-.
          assert (Li : (i < length gi)%nat) by (apply nth_error_Some; congruence).
          simpl. unfold zero_rows. simpl. destruct (Nat.ltb_spec i (nrow K X)); [|lia]. simpl. eexists. split; [reflexivity|].
          intros a b. cbn [ent]. destruct (Nat.eqb_spec a M) as [->|NE].
          * rewrite (scat_ext _ _ _ (fun _ _ => 0)); [apply scat_zero|]. intros i' j' L1 L2 E1' E2'.
            assert (i' = i) by (eapply ONCE; [exact Eg| |exact Ei]; rewrite <- E1'; apply nth_error_nth'; assumption). subst. rewrite Nat.eqb_refl. reflexivity.
          * apply scat_ext. intros i' j' L1 L2 E1' E2'. destruct (Nat.eqb_spec i' i) as [->|]; [|reflexivity].
            exfalso. apply NE. rewrite <- E1'. apply nth_error_nth. assumption.
        + rewrite ops_none by (unfold L; rewrite map_map; exact I). simpl. exists X. split; [reflexivity|].
          intros a b. destruct (Nat.eqb_spec a M) as [->|]; [|reflexivity]. apply scat_none. left. intros I'. apply I. eapply H2; eassumption.
      - eapply assembled_ext; [|exact E2]. intros a b. cbv beta. destruct (a =? M).
        + apply bsum_0. intros r _. apply bsum_0. reflexivity.
        + symmetry. apply E1.
    Qed.
  End Clear.

  Lemma in_TBG rO cO e i j : NoDup (map fst (found_list rO)) ->
    In (e, (i, j)) (TBG rO cO) -> In (e, i) (found_list rO) /\ In (e, j) (found_list cO).
  Proof.
    unfold TBG. destruct rO as [[rE rI]|]; [|simpl; tauto]. destruct cO as [[cE cI]|]; [|simpl; tauto]. intros ND I. cbn [found_list].
    apply in_flat_map in I. destruct I as ((e' & i') & I & I'). cbn [fst snd] in I'. destruct (lookup Nat.eqb e' (combine cE cI)) eqn:E; [|destruct I'].
    destruct I' as [I'|[]]. injection I' as -> -> ->. split; [assumption|]. apply lookup_In. assumption.
  Qed.
  Lemma keys_TBG rO cO e : In e (map fst (TBG rO cO)) <-> In e (map fst (found_list rO)) /\ In e (map fst (found_list cO)).
  Proof.
    unfold TBG. destruct rO as [[rE rI]|]; [|simpl; tauto]. destruct cO as [[cE cI]|]; [|simpl; tauto]. cbn [found_list]. split.
    - intros I. apply in_map_iff in I. destruct I as ((e' & ij) & <- & I). apply in_flat_map in I. destruct I as ((e2 & i') & I & I'). cbn [fst snd] in *.
      destruct (lookup Nat.eqb e2 (combine cE cI)) eqn:E; [|destruct I']. destruct I' as [I'|[]]. injection I' as <- <-.
      split; apply in_map_iff; [exists (e2, i')|exists (e2, n)]; split; auto. apply lookup_In. assumption.
    - intros [I1 I2]. apply in_map_iff in I1. destruct I1 as ((e' & i) & <- & I1). cbn [fst] in *. apply lookup_some in I2. destruct I2 as [j E].
      apply in_map_iff. exists (e', (i, j)). split; [reflexivity|]. apply in_flat_map. exists (e', i). split; [assumption|]. cbn [fst snd]. rewrite E. left. reflexivity.
  Qed.
  Lemma NoDup_TBG rO cO : NoDup (map fst (found_list rO)) -> NoDup (map fst (TBG rO cO)).
  Proof.
    unfold TBG. destruct rO as [[rE rI]|]; [|constructor]. destruct cO as [[cE cI]|]; [|constructor]. cbn [found_list].
    induction (combine rE rI) as [|[e i] l IH]; [constructor|]. simpl. intros ND. inversion ND; subst.
    destruct (lookup Nat.eqb e (combine cE cI)); [|apply IH; assumption]. simpl. constructor; [|apply IH; assumption].
    intros I. apply H1. apply in_map_iff in I. destruct I as ((e' & ij) & <- & I). apply in_flat_map in I. destruct I as ((e2 & i') & I & I'). cbn [fst snd] in *.
    destruct (lookup Nat.eqb e2 (combine cE cI)); [|destruct I']. destruct I' as [I'|[]]. injection I' as <- _. apply in_map_iff. exists (e2, i'). auto.
  Qed.

  Section SetIJ.
    Variable choose : list nat -> nat.
    Hypothesis CH : forall l, l <> [] -> In (choose l) l.
    Variables (N : option nat) (i j : Z).
    Hypothesis Ri : (- Z.of_nat (sum ns) <= i < Z.of_nat (sum ns))%Z.
    Hypothesis Rj : (- Z.of_nat (sum ms) <= j < Z.of_nat (sum ms))%Z.
    Notation I0 := (row_of (sum ns) i). Notation J0 := (row_of (sum ms) j).
    Hypothesis CAPr : within_cap SIZE rgms N I0.
    Hypothesis CAPc : within_cap SIZE cgms N J0.
    Hypothesis ONCEr : once SIZE rgms I0.
    Hypothesis ONCEc : once SIZE cgms J0.


    Lemma set_ok v cus :
      match set_assembled_M_ij_to K choose SIZE rgms cgms N i j v cus with
      | None => ~ coupled SIZE rgms cgms I0 J0
      | Some cus' => coupled SIZE rgms cgms I0 J0 /\ forall base A, sizes_match K SIZE rgms cgms base -> assembled K SIZE rgms cgms base cus A ->
          assembled K SIZE rgms cgms base cus' (fun a b => if (a =? I0) && (b =? J0) then v else A a b)
      end.
    Proof.
      destruct (finds_ok _ _ _ WN RG N i Ri CAPr) as (rf & EF & HF).
      destruct (finds_ok _ _ _ WM RM N j Rj CAPc) as (cf & EG & HG).
      unfold set_assembled_M_ij_to. rewrite EF, EG. cbv zeta.
      set (all := concat (map (fun r => map fst (TBG (found_at rf r) (found_at cf r))) (seq 0 SIZE))).
      pose (tbg := fun r => TBG (found_at rf r) (found_at cf r)).
      assert (KT : forall r e, (r < SIZE)%nat -> In e (map fst (tbg r)) <-> exists gi gj, rv r e = Some gi /\ cv r e = Some gj /\ In I0 gi /\ In J0 gj).
      { intros r e Hr. destruct (HF r Hr) as (_ & F1 & F2 & _), (HG r Hr) as (_ & G1 & G2 & _). unfold tbg. rewrite keys_TBG. split.
        - intros [X1 X2]. apply in_map_iff in X1, X2. destruct X1 as ((e1 & i1) & <- & X1), X2 as ((e2 & i2) & E2 & X2). cbn [fst] in *. subst e2.
          destruct (F1 _ _ X1) as (gi & Eg & Ei), (G1 _ _ X2) as (gj & Ej & Ei2). exists gi, gj. repeat split; try assumption; eapply nth_error_In; eassumption.
        - intros (gi & gj & E1 & E2 & I1 & I2). split; [eapply F2|eapply G2]; eassumption. }
      assert (AL : forall e, In e all <-> exists r, (r < SIZE)%nat /\ In e (map fst (tbg r))).
      { intros e. unfold all. rewrite in_concat. split.
        - intros (l & Il & Ie). apply in_map_iff in Il. destruct Il as (r & <- & Ir). apply in_seq in Ir. exists r. split; [lia|assumption].
        - intros (r & Hr & Ie). exists (map fst (tbg r)). split; [|assumption]. apply in_map_iff. exists r. split; [reflexivity|apply in_seq; lia]. }
      destruct all as [|e0 al] eqn:EA.
      { intros (r & e & gi & gj & Hr & H). assert (X : In e []) by (apply AL; exists r; split; [assumption|]; apply KT; eauto). destruct X. }
      rewrite <- EA in *. set (te := choose all).
      assert (TE : In te all) by (apply CH; rewrite EA; discriminate).
      destruct (filter _ (seq 0 SIZE)) as [|w ws] eqn:EW.
      { exfalso. apply AL in TE. destruct TE as (r & Hr & Ie).
        assert (X : In r []) by (rewrite <- EW; apply filter_In; change (TBG (found_at rf r) (found_at cf r)) with (tbg r); split; [apply in_seq; lia|]; apply existsb_exists; exists te; split; [assumption|apply Nat.eqb_refl]). destruct X. }
      assert (HW : In w (w :: ws)) by (left; reflexivity). rewrite <- EW in HW.
      apply filter_In in HW. destruct HW as [Hw1 Hw2]. change (TBG (found_at rf w) (found_at cf w)) with (tbg w) in Hw2. apply in_seq in Hw1. apply existsb_exists in Hw2. destruct Hw2 as (te' & Hw2 & Q). apply Nat.eqb_eq in Q. subst te'.
      split.
      { apply KT in Hw2; [|lia]. destruct Hw2 as (gi & gj & Q). exists w, te, gi, gj. split; [lia|assumption]. }
      intros base A SM HA.
      set (L := fun r => map (fun p : nat * (nat * nat) => (fst p, @salv K (fst (snd p)) (snd (snd p)) (if (r =? w) && (fst p =? te) then v else 0))) (tbg r)).
      destruct (cus_step base cus (fun r => register_all K (cus r) (L r)) (fun r e => ops_for (L r) e)
        (fun r e a b x => if (a =? I0) && (b =? J0) then (if (r =? w) && (e =? te) then v else 0) else x) A SM) as (S & E1 & _ & E2); [| |exact HA|].
      - intros r e Hr. apply dget_register_fold.
      - intros r e gi gj X Hr He Eg Ej S1 S2. destruct (HF r Hr) as (NDr & F1 & F2 & _), (HG r Hr) as (NDc & G1 & G2 & _).
        destruct (in_dec Nat.eq_dec e (map fst (tbg r))) as [I|I].
        + pose proof I as I'. apply in_map_iff in I'. destruct I' as ((e' & (li & lj)) & Q & I'). cbn [fst] in Q. subst e'.
          rewrite (ops_one (L r) e (@salv K li lj (if (r =? w) && (e =? te) then v else 0))).
          2:{ unfold L. rewrite map_map. cbn [fst]. apply NoDup_TBG. assumption. }
          2:{ apply in_map_iff. exists (e, (li, lj)). auto. }
          destruct (in_TBG _ _ _ _ _ NDr I') as [X1 X2]. destruct (F1 _ _ X1) as (gi' & Q1 & P1), (G1 _ _ X2) as (gj' & Q2 & P2).
          rewrite Eg in Q1; injection Q1 as <-. rewrite Ej in Q2; injection Q2 as <-.
          assert (Li : (li < length gi)%nat) by (apply nth_error_Some; congruence).
          assert (Lj : (lj < length gj)%nat) by (apply nth_error_Some; congruence).
          set (x := if (r =? w) && (e =? te) then v else 0). cbn [apply_all apply_cusop]. unfold set_ent.
          destruct (Nat.ltb_spec li (nrow K X)); [|lia]. destruct (Nat.ltb_spec lj (ncol K X)); [|lia]. simpl. eexists. split; [reflexivity|].
          intros a b. cbn [ent]. destruct (Nat.eqb_spec a I0) as [->|NE]; [destruct (Nat.eqb_spec b J0) as [->|NE]|]; simpl.
          * rewrite scat_rows. rewrite (bsum_only _ (seq 0 (length gi)) li); [|apply seq_NoDup|apply in_seq; lia|].
            -- rewrite (bsum_only _ (seq 0 (length gj)) lj); [|apply seq_NoDup|apply in_seq; lia|].
               ++ rewrite !Nat.eqb_refl. rewrite (nth_error_nth _ _ O P1), (nth_error_nth _ _ O P2), !Nat.eqb_refl. reflexivity.
               ++ intros j' Hj NEj. apply in_seq in Hj. destruct (Nat.eqb_spec (nth j' gj O) J0) as [Q|]; [|rewrite andb_false_r; reflexivity].
                  exfalso. apply NEj. eapply ONCEc; [exact Ej| |exact P2]. rewrite <- Q. apply nth_error_nth'. lia.
            -- intros i' Hi NEi. apply in_seq in Hi. apply bsum_0. intros j' _. destruct (Nat.eqb_spec (nth i' gi O) I0) as [Q|]; [|reflexivity].
               exfalso. apply NEi. eapply ONCEr; [exact Eg| |exact P1]. rewrite <- Q. apply nth_error_nth'. lia.
          * apply scat_ext. intros i' j' L1 L2 E1' E2'. destruct (Nat.eqb_spec j' lj) as [->|]; [|rewrite andb_false_r; reflexivity].
            exfalso. apply NE. rewrite <- E2'. apply nth_error_nth. assumption.
          * apply scat_ext. intros i' j' L1 L2 E1' E2'. destruct (Nat.eqb_spec i' li) as [->|]; [|reflexivity].
            exfalso. apply NE. rewrite <- E1'. apply nth_error_nth. assumption.
        + rewrite ops_none by (unfold L; rewrite map_map; exact I). exists X. split; [reflexivity|].
          intros a b. destruct (Nat.eqb_spec a I0) as [->|]; [|reflexivity]. destruct (Nat.eqb_spec b J0) as [->|]; [|reflexivity]. simpl.
          replace ((r =? w) && (e =? te)) with false.
          * apply scat_none. destruct (in_dec Nat.eq_dec I0 gi) as [II|]; [|auto]. destruct (in_dec Nat.eq_dec J0 gj) as [JJ|]; [|auto].
            exfalso. apply I, KT; eauto 8.
          * symmetry. apply andb_false_iff. rewrite !Nat.eqb_neq. destruct (Nat.eq_dec r w) as [->|]; [|auto]. right. intros ->. contradiction.
      - eapply assembled_ext; [|exact E2]. intros a b. cbv beta. destruct ((a =? I0) && (b =? J0)); [|symmetry; apply E1].
        rewrite (bsum_only _ (seq 0 SIZE) w); [|apply seq_NoDup|apply in_seq; lia|].
        + rewrite Nat.eqb_refl. cbn [andb]. rewrite (bsum_only _ (els w) te).
          * rewrite Nat.eqb_refl. reflexivity.
          * apply (wn_keys _ _ _ WN). pose proof (wn_some _ _ _ WN). destruct rgms; [congruence|left; reflexivity].
          * apply KT in Hw2; [|lia]. destruct Hw2 as (gi & gj & Q & _). apply (getitem_elements _ _ _ WN) in Q. tauto.
          * intros e' _ NE. apply Nat.eqb_neq in NE. rewrite NE. reflexivity.
        + intros r _ NE. apply Nat.eqb_neq in NE. rewrite NE. apply bsum_0. reflexivity.
    Qed.
  End SetIJ.

  Section Identify.
    Variable choose : list nat -> nat.
    Hypothesis CH : forall l, l <> [] -> In (choose l) l.
    Variables (N : option nat) (m : Z).
    Hypothesis Ri : (- Z.of_nat (sum ns) <= m < Z.of_nat (sum ns))%Z.
    Hypothesis Rj : (- Z.of_nat (sum ms) <= m < Z.of_nat (sum ms))%Z.
    Notation I0 := (row_of (sum ns) m). Notation J0 := (row_of (sum ms) m).
    Hypothesis CAPr : within_cap SIZE rgms N I0.
    Hypothesis CAPc : within_cap SIZE cgms N J0.
    Hypothesis ONCEr : once SIZE rgms I0.
    Hypothesis ONCEc : once SIZE cgms J0.
    Lemma identify_ok cus :
      match identify_global_row K choose SIZE rgms cgms N m cus with
      | None => ~ coupled SIZE rgms cgms I0 J0
      | Some cus' => coupled SIZE rgms cgms I0 J0 /\ forall base A, sizes_match K SIZE rgms cgms base -> assembled K SIZE rgms cgms base cus A ->
          assembled K SIZE rgms cgms base cus' (fun a b => if a =? I0 then (if b =? J0 then 1 else 0) else A a b)
      end.
    Proof.
      unfold identify_global_row. destruct (clear_ok N m Ri CAPr ONCEr cus) as (cus1 & -> & H1).
      pose proof (set_ok choose CH N m m Ri Rj CAPr CAPc ONCEr ONCEc 1 cus1) as H2.
      destruct (set_assembled_M_ij_to _ _ _ _ _ _ _ _ _ _) as [cus2|]; [|exact H2]. destruct H2 as [C H2]. split; [exact C|].
      intros base A SM HA. eapply assembled_ext; [|apply H2; [exact SM|apply H1; [exact SM|exact HA]]].
      intros a b. cbv beta. destruct (a =? I0); simpl; reflexivity.
    Qed.
  End Identify.
End Rows.
