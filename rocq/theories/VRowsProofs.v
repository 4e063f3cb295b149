(** Proofs for C21 and C22: setting an entry of the assembled vector; setting an unknown. *)
From Coq Require Import List Arith ZArith Bool Lia Sorting.Sorted.
From Verif Require Import Prelude PreludeProofs RingSum AssembleModel AssembleProofs GatherModel GatherSpec GatherProofs FindProofs
  EwcModel EwcProofs VCusProofs AsmModel AsmSpec AsmProofs RowsProofs.
Import ListNotations.

Lemma find_order SIZE gms r N m E Is : CGM_find SIZE gms r N m = Found (E, Is) ->
  exists w m', E = search N m' (gm_local (nth w gms []) r).
Proof.
  unfold CGM_find. destruct (chain_check SIZE gms) as [ns|]; [|discriminate]. destruct (CGM_global_num_dofs SIZE gms) as [t|]; [|discriminate].
  destruct (negb _); [discriminate|]. cbv zeta.
  set (m0 := Z.to_nat _). clearbody m0.
  assert (G : match elements (nth 0 gms []) r with
     | [] => NotFound
     | _ => match local_ranges ns gms r, GV_LENs gms r with
            | Some lrs, Some lens => match which_matrix m0 lrs with
                | Datatypes.inr _ => Raised | inl None => NotFound
                | inl (Some w) =>
                    match search N (m0 - nth w (To_Be_Added 0 ns) 0) (gm_local (nth w gms []) r) with
                    | [] => NotFound
                    | ELE => match all_some (map (fun e => match gv_of (nth w gms []) r e with
                                 | Some v => option_map (fun i => i + nth w (To_Be_Added 0 lens) 0) (first_index (Nat.eqb (m0 - nth w (To_Be_Added 0 ns) 0)) v)
                                 | None => None end) ELE) with Some idx => Found (ELE, idx) | None => Raised end
                    end end
            | _, _ => Raised end end = Found (E, Is) -> exists w m', E = search N m' (gm_local (nth w gms []) r)).
  { destruct (elements _ r); [discriminate|]. destruct (local_ranges ns gms r) as [lrs|]; [|discriminate]. destruct (GV_LENs gms r) as [lens|]; [|discriminate].
    destruct (which_matrix m0 lrs) as [[w|]|]; try discriminate.
    destruct (search N _ _) as [|x0 l0] eqn:ES; [discriminate|]. cbv zeta. match goal with |- match ?z with Some _ => _ | None => _ end = _ -> _ => destruct z end; [|discriminate]. intros Q. injection Q as <- _.
    eexists w, _. symmetry. exact ES. }
  destruct N as [[|n]|]; [discriminate|exact G|exact G].
Qed.

Lemma sorted_search N m (g : LocalGM) : StronglySorted lt (map fst g) -> StronglySorted lt (search N m g).
Proof.
  intros HS. assert (S1 : StronglySorted lt (map fst (filter (fun kv => existsb (Nat.eqb m) (snd kv)) g))).
  { induction g as [|[e v] g IH]; [constructor|]. simpl in *. inversion HS; subst. destruct (existsb _ v); [|auto]. simpl. constructor; [auto|].
    apply Forall_forall. intros x I. apply in_map_iff in I. destruct I as (p & <- & I). apply filter_In in I. rewrite Forall_forall in H2. apply H2.
    apply in_map. tauto. }
  unfold search. destruct N as [n|]; [|assumption]. revert n. induction S1 as [|x l S1 IH F]; intros [|n]; simpl; try constructor; auto.
  apply Forall_forall. intros y I. rewrite Forall_forall in F. apply F. clear - I. revert l I. induction n; intros [|z l] I; simpl in *; try tauto. destruct I; auto.
Qed.

Section VRows.
  Variable K : CRing.
  Add Ring Kring3 : (Rth K).
  Local Open Scope ring_s.
  Variables (SIZE : nat) (gms : list GMat) (ns : list nat).
  Hypothesis WN : well_numbered SIZE gms ns.
  Hypothesis RG : forall g, In g gms -> regular g.
  Notation rv := (CGM_getitem SIZE gms Silly).
  Notation els r := (elements (nth 0 gms []) r).
  Hypothesis ASC : ascending gms.

  Lemma vrv_some r e : (r < SIZE)%nat -> In e (els r) -> exists gi, rv r e = Some gi.
  Proof. intros Hr He. rewrite (silly_value _ _ _ WN r e Hr He). eauto. Qed.

  Lemma vset_len i v x y : vset K i v x = Some y -> vlen K y = vlen K x.
  Proof. unfold vset. destruct (_ <? _); [|discriminate]. intros E; injection E as <-. reflexivity. Qed.
  Lemma vsets_len iv : forall x y, vsets K iv x = Some y -> vlen K y = vlen K x.
  Proof.
    induction iv as [|[i v] iv IH]; intros x y E; simpl in E; [congruence|]. destruct (vset K i v x) eqn:E1; [|discriminate].
    apply vset_len in E1. apply IH in E. congruence.
  Qed.
  Lemma vapply_len c x y : vapply K 0 c x = Some y -> vlen K y = vlen K x.
  Proof. destruct c; [apply vset_len|apply vset_len|apply vsets_len]. Qed.
  Lemma vapply_all_len cs : forall x y, vapply_all K 0 cs x = Some y -> vlen K y = vlen K x.
  Proof.
    induction cs as [|c cs IH]; intros x y E; simpl in E; [congruence|]. destruct (vapply K 0 c x) eqn:E1; [|discriminate].
    apply vapply_len in E1. apply IH in E. congruence.
  Qed.
  Lemma vapply_all_app cs cs' x : vapply_all K 0 (cs ++ cs') x = match vapply_all K 0 cs x with Some y => vapply_all K 0 cs' y | None => None end.
  Proof. revert x. induction cs as [|c cs IH]; intros x; simpl; [reflexivity|]. destruct (vapply K 0 c x); [apply IH|reflexivity]. Qed.

  Lemma vscat_rows gi f a : vscat K gi f a = bsum (seq 0 (length gi)) (fun i => if nth i gi O =? a then f i else 0).
  Proof. unfold vscat. apply (bsum_enum gi (fun i x => if x =? a then f i else 0) O). Qed.
  Lemma vscat_none gi f a : ~ In a gi -> vscat K gi f a = 0.
  Proof.
    intros H. rewrite vscat_rows. apply bsum_0. intros i Hi. apply in_seq in Hi. destruct (Nat.eqb_spec (nth i gi O) a) as [E|]; [|reflexivity].
    exfalso. apply H. subst. apply nth_In. lia.
  Qed.

  Variables (N : option nat) (m : Z).
  Hypothesis Rm : (- Z.of_nat (sum ns) <= m < Z.of_nat (sum ns))%Z.
  Notation M := (row_of (sum ns) m).
  Hypothesis CAP : within_cap SIZE gms N M.
  Hypothesis ONCE : once SIZE gms M.

  Lemma vset_ok v cus : exists cus', set_assembled_V_i_to K SIZE gms N m v cus = Some cus' /\
    forall base A, vsizes_match K SIZE gms base -> vassembled K SIZE gms base cus A ->
      vassembled K SIZE gms base cus' (fun a => if a =? M then v else A a).
  Proof.
    destruct (finds_ok _ _ _ WN RG N m Rm CAP) as (fs & EF & HF). unfold set_assembled_V_i_to. rewrite EF. cbv zeta.
    set (all := concat (map (fun r => match found_at fs r with Some (E, _) => E | None => [] end) (seq 0 SIZE))).
    pose (ef := fun r => match found_at fs r with Some (E, _) => E | None => [] end).
    assert (EE : forall r, (r < SIZE)%nat -> ef r = map fst (found_list (found_at fs r))).
    { intros r Hr. destruct (HF r Hr) as (_ & _ & _ & _ & L). unfold ef. destruct (found_at fs r) as [[E Is]|]; [|reflexivity]. cbn [found_list]. rewrite map_fst_combine; auto. }
    assert (AL : forall e, In e all <-> exists r, (r < SIZE)%nat /\ In e (ef r)).
    { intros e. unfold all. rewrite in_concat. split.
      - intros (l & Il & Ie). apply in_map_iff in Il. destruct Il as (r & <- & Ir). apply in_seq in Ir. exists r. split; [lia|assumption].
      - intros (r & Hr & Ie). exists (ef r). split; [|assumption]. apply in_map_iff. exists r. split; [reflexivity|apply in_seq; lia]. }
    assert (NE : all <> []).
    { assert (LM : (M < sum ns)%nat) by (unfold row_of; destruct (Z.ltb_spec m 0); lia).
      apply (silly_cover _ _ _ WN) in LM. destruct LM as (r & e & gi & E & I). pose proof (getitem_elements _ _ _ WN _ _ _ _ E) as [Hr He].
      intros Q. assert (X : In e []); [|destruct X]. rewrite <- Q. apply AL. exists r. split; [assumption|]. rewrite EE by assumption.
      destruct (HF r Hr) as (_ & _ & H2 & _). eapply H2; eassumption. }
    destruct (minl_in all NE) as [MI ML].
    destruct all as [|a0 al] eqn:EA; [congruence|]. rewrite <- EA in *. clear a0 al EA. set (te := minl all) in *.
    destruct (filter _ (seq 0 SIZE)) as [|w ws] eqn:EW.
    { exfalso. apply AL in MI. destruct MI as (r & Hr & Ie).
      assert (X : In r []) by (rewrite <- EW; apply filter_In; split; [apply in_seq; lia|]; apply existsb_exists; exists te; split; [assumption|apply Nat.eqb_refl]). destruct X. }
    assert (HW : In w (w :: ws)) by (left; reflexivity). rewrite <- EW in HW.
    apply filter_In in HW. destruct HW as [Hw1 Hw2]. apply in_seq in Hw1. apply existsb_exists in Hw2. destruct Hw2 as (te' & Hw2 & Q). apply Nat.eqb_eq in Q. subst te'.
    change (In te (ef w)) in Hw2. change (match found_at fs w with Some (E, _) => E | None => [] end) with (ef w).
    assert (SO : StronglySorted lt (ef w)).
    { destruct (HF w ltac:(lia)) as (_ & _ & _ & HFd & _). unfold ef in *. destruct (found_at fs w) as [[E Is]|]; [|destruct Hw2].
      destruct (CGM_find SIZE gms w N m) as [| |[E' Is']] eqn:EC; try discriminate. injection HFd as -> ->.
      apply find_order in EC. destruct EC as (k & m' & ->). apply sorted_search. destruct (nth_in_or_default k gms []) as [I|D].
      - apply ASC. assumption.
      - change (@nil (nat * GV)) with (@nil (nat * list nat)). rewrite D. unfold gm_local. destruct w; constructor. }
    destruct (ef w) as [|e0 el] eqn:EL; [destruct Hw2|].
    assert (TE : te = e0).
    { assert (te <= e0)%nat by (apply ML, AL; exists w; split; [lia|]; rewrite EL; left; reflexivity).
      destruct Hw2 as [->|Hw2]; [reflexivity|]. inversion SO; subst. rewrite Forall_forall in H3. specialize (H3 _ Hw2). lia. }
    rewrite <- TE, Nat.eqb_refl. eexists. split; [reflexivity|].
    intros base A SM (Vs & HV & HA).
    set (op := fun (r : nat) (p : nat * nat) => if (r =? w) && (fst p =? te) then @slet K (snd p) v else @cletr K (snd p)).
    set (L := fun r => map (fun p => (fst p, op r p)) (found_list (found_at fs r))).
    set (cus' := fun r => match found_at fs r with None => cus r | Some (E, Is) => vregister_all K (cus r) (map (fun p => (fst p, op r p)) (combine E Is)) end).
    assert (HD : forall r e, (r < SIZE)%nat -> dget (cus' r) e = dget (cus r) e ++ ops_for (L r) e).
    { intros r e Hr. unfold cus', L. destruct (found_at fs r) as [[E Is]|].
      - apply dget_register_fold.
      - unfold ops_for. simpl. rewrite app_nil_r. reflexivity. }
    assert (NEW : forall r e, (r < SIZE)%nat -> In e (els r) -> exists gi y, rv r e = Some gi /\ local_vector K base cus' r e = Some y /\
      forall a, vscat K gi (vent K y) a = if a =? M then (if (r =? w) && (e =? te) then v else 0) else vscat K gi (vent K (Vs r e)) a).
    { intros r e Hr He. destruct (vrv_some r e Hr He) as [gi Eg]. pose proof (HV r e Hr He) as EV. unfold local_vector in *.
      pose proof (vapply_all_len _ _ _ EV) as LV. rewrite (SM r e gi Eg) in LV. destruct (HF r Hr) as (ND & H1 & H2 & _).
      exists gi. rewrite HD, vapply_all_app, EV by assumption.
      destruct (in_dec Nat.eq_dec e (map fst (found_list (found_at fs r)))) as [I|I].
      - apply in_map_iff in I. destruct I as ((e' & i) & Q & I). cbn [fst] in Q. subst e'.
        rewrite (ops_one (L r) e (op r (e, i))).
        2:{ unfold L. rewrite map_map. exact ND. }
        2:{ apply in_map_iff. exists (e, i). auto. }
        destruct (H1 e i I) as (gi' & Q & Ei). rewrite Eg in Q; injection Q as <-.
        assert (Li : (i < length gi)%nat) by (apply nth_error_Some; congruence).
        set (x := if (r =? w) && (e =? te) then v else 0).
        assert (EO : vapply_all K 0 [op r (e, i)] (Vs r e) = Some (mkV K (vlen K (Vs r e)) (fun k => if k =? i then x else vent K (Vs r e) k))).
        { simpl. unfold op. cbn [fst snd]. unfold x. destruct ((r =? w) && (e =? te)); simpl; unfold vset; (destruct (Nat.ltb_spec i (vlen K (Vs r e))); [reflexivity|lia]). }
        rewrite EO. eexists. split; [exact Eg|]. split; [reflexivity|]. intros a. cbn [vent]. rewrite !vscat_rows.
        destruct (Nat.eqb_spec a M) as [->|NEa].
        + rewrite (bsum_only _ (seq 0 (length gi)) i); [|apply seq_NoDup|apply in_seq; lia|].
          * rewrite (nth_error_nth _ _ O Ei), !Nat.eqb_refl. reflexivity.
          * intros i' Hi NEi. apply in_seq in Hi. destruct (Nat.eqb_spec (nth i' gi O) M) as [Q|]; [|reflexivity].
            exfalso. apply NEi. eapply ONCE; [exact Eg| |exact Ei]. rewrite <- Q. apply nth_error_nth'. lia.
        + apply bsum_ext. intros i' Hi. destruct (Nat.eqb_spec (nth i' gi O) a) as [Q|]; [|reflexivity]. destruct (Nat.eqb_spec i' i) as [->|]; [|reflexivity].
          exfalso. apply NEa. rewrite <- Q. apply nth_error_nth. assumption.
      - rewrite ops_none by (unfold L; rewrite map_map; exact I). simpl. eexists. split; [exact Eg|]. split; [reflexivity|].
        intros a. destruct (Nat.eqb_spec a M) as [->|]; [|reflexivity].
        replace ((r =? w) && (e =? te)) with false.
        + apply vscat_none. intros I'. apply I. eapply H2; eassumption.
        + symmetry. apply andb_false_iff. rewrite !Nat.eqb_neq. destruct (Nat.eq_dec r w) as [->|]; [|auto]. right. intros ->.
          apply I. rewrite <- EE, EL by lia. left. congruence. }
    exists (fun r e => match local_vector K base cus' r e with Some y => y | None => base r e end). split.
    - intros r e Hr He. destruct (NEW r e Hr He) as (gi & y & _ & EY & _). change (local_vector K base cus' r e = Some (match local_vector K base cus' r e with Some y0 => y0 | None => base r e end)). rewrite EY. reflexivity.
    - intros a.
      transitivity (bsum (seq 0 SIZE) (fun r => bsum (els r) (fun e => if a =? M then (if (r =? w) && (e =? te) then v else 0) else match rv r e with Some gi => vscat K gi (vent K (Vs r e)) a | None => 0 end))).
      + destruct (Nat.eqb_spec a M) as [->|]; [|apply HA].
        rewrite (bsum_only _ (seq 0 SIZE) w); [|apply seq_NoDup|apply in_seq; lia|].
        * rewrite Nat.eqb_refl. cbn [andb]. rewrite (bsum_only _ (els w) te).
          -- rewrite Nat.eqb_refl. reflexivity.
          -- apply (wn_keys _ _ _ WN). pose proof (wn_some _ _ _ WN). destruct gms; [congruence|left; reflexivity].
          -- destruct (HF w ltac:(lia)) as (_ & H1 & _). assert (I : In te (map fst (found_list (found_at fs w)))) by (rewrite <- EE, EL by lia; exact Hw2).
             apply in_map_iff in I. destruct I as ((e' & i) & Q & I). cbn [fst] in Q. subst e'. destruct (H1 _ _ I) as (gi & Eg & _). apply (getitem_elements _ _ _ WN) in Eg. tauto.
          -- intros e' _ NEe. apply Nat.eqb_neq in NEe. rewrite NEe. reflexivity.
        * intros r _ NEr. apply Nat.eqb_neq in NEr. rewrite NEr. apply bsum_0. reflexivity.
      + apply bsum_ext. intros r Hr. apply in_seq in Hr. apply bsum_ext. intros e He. destruct (NEW r e ltac:(lia) He) as (gi & y & Eg & EY & ES).
        rewrite Eg, EY, ES. reflexivity.
  Qed.
End VRows.

Section Unknown.
  Variable K : CRing.
  Add Ring Kring4 : (Rth K).
  Local Open Scope ring_s.
  Variables (SIZE : nat) (rgms cgms : list GMat) (ns ms : list nat).
  Hypothesis WN : well_numbered SIZE rgms ns.
  Hypothesis WM : well_numbered SIZE cgms ms.
  Hypothesis SC : same_cores SIZE (nth 0 rgms []) (nth 0 cgms []).
  Hypothesis RG : forall g, In g rgms -> regular g.
  Hypothesis RM : forall g, In g cgms -> regular g.
  Hypothesis ASC : ascending rgms.
  Hypothesis SQ : sum ns = sum ms.
  Variable choose : list nat -> nat.
  Hypothesis CH : forall l, l <> [] -> In (choose l) l.
  Variables (N : option nat) (m : Z).
  Hypothesis Rm : (- Z.of_nat (sum ns) <= m < Z.of_nat (sum ns))%Z.
  Notation M := (row_of (sum ns) m).
  Hypothesis CAPr : within_cap SIZE rgms N M.
  Hypothesis CAPc : within_cap SIZE cgms N M.
  Hypothesis ONCEr : once SIZE rgms M.
  Hypothesis ONCEc : once SIZE cgms M.

  Lemma unknown_ok v Ac bc Ac' bc' : set_unknown_to K choose SIZE rgms cgms rgms N m v Ac bc = Some (Ac', bc') ->
    forall Ab Bb A b, sizes_match K SIZE rgms cgms Ab -> vsizes_match K SIZE rgms Bb ->
      assembled K SIZE rgms cgms Ab Ac A -> vassembled K SIZE rgms Bb bc b ->
    exists A' b', assembled K SIZE rgms cgms Ab Ac' A' /\ vassembled K SIZE rgms Bb bc' b' /\
      forall x, solves K (sum ns) A' b' x <->
        x M = v /\ forall a, (a < sum ns)%nat -> a <> M -> bsum (seq 0 (sum ns)) (fun c => A a c * x c) = b a.
  Proof.
    intros E Ab Bb A b S1 S2 HA Hb. unfold set_unknown_to in E.
    assert (CAPc' : within_cap SIZE cgms N (row_of (sum ms) m)) by (rewrite <- SQ; exact CAPc).
    assert (ONCEc' : once SIZE cgms (row_of (sum ms) m)) by (rewrite <- SQ; exact ONCEc).
    assert (Rm' : (- Z.of_nat (sum ms) <= m < Z.of_nat (sum ms))%Z) by (rewrite <- SQ; exact Rm).
    pose proof (identify_ok K SIZE rgms cgms ns ms WN WM SC RG RM choose CH N m Rm Rm' CAPr CAPc' ONCEr ONCEc' Ac) as HI.
    destruct (identify_global_row K choose SIZE rgms cgms N m Ac) as [Ac1|]; [|discriminate]. destruct HI as [_ HI].
    destruct (vset_ok K SIZE rgms ns WN RG ASC N m Rm CAPr ONCEr v bc) as (bc1 & E1 & HV). rewrite E1 in E. injection E as <- <-.
    exists (fun a c => if a =? M then (if c =? M then 1 else 0) else A a c), (fun a => if a =? M then v else b a).
    split; [|split; [apply HV; assumption|]].
    { pose proof (HI Ab A S1 HA) as X. rewrite <- SQ in X. exact X. }
    assert (LM : (M < sum ns)%nat) by (unfold row_of; destruct (Z.ltb_spec m 0); lia).
    assert (RW : forall x : nat -> K, bsum (seq 0 (sum ns)) (fun c => (if c =? M then 1 else 0) * x c) = x M).
    { intros x. rewrite (bsum_only _ (seq 0 (sum ns)) M); [rewrite Nat.eqb_refl; ring|apply seq_NoDup|apply in_seq; lia|].
      intros c _ NE. apply Nat.eqb_neq in NE. rewrite NE. ring. }
    intros x. unfold solves. split.
    - intros H. split.
      + specialize (H M LM). rewrite Nat.eqb_refl, RW in H. exact H.
      + intros a La NE. specialize (H a La). apply Nat.eqb_neq in NE. rewrite NE in H. exact H.
    - intros [H1 H2] a La. destruct (Nat.eqb_spec a M) as [->|NE]; [rewrite RW; exact H1|]. apply H2; assumption.
  Qed.
  Lemma unknown_raises v Ac bc : set_unknown_to K choose SIZE rgms cgms rgms N m v Ac bc = None ->
    ~ coupled SIZE rgms cgms M M.
  Proof.
    intros E. unfold set_unknown_to in E.
    assert (CAPc' : within_cap SIZE cgms N (row_of (sum ms) m)) by (rewrite <- SQ; exact CAPc).
    assert (ONCEc' : once SIZE cgms (row_of (sum ms) m)) by (rewrite <- SQ; exact ONCEc).
    assert (Rm' : (- Z.of_nat (sum ms) <= m < Z.of_nat (sum ms))%Z) by (rewrite <- SQ; exact Rm).
    pose proof (identify_ok K SIZE rgms cgms ns ms WN WM SC RG RM choose CH N m Rm Rm' CAPr CAPc' ONCEr ONCEc' Ac) as HI.
    destruct (vset_ok K SIZE rgms ns WN RG ASC N m Rm CAPr ONCEr v bc) as (bc1 & E1 & HV). rewrite E1 in E.
    destruct (identify_global_row K choose SIZE rgms cgms N m Ac) as [Ac1|]; [discriminate|]. rewrite <- SQ in HI. exact HI.
  Qed.
End Unknown.
