(** Proofs for C66: the assembled matrix and vector after the operations of a strong boundary condition. *)
From Coq Require Import List Arith ZArith Bool Lia Permutation.
From Verif Require Import Prelude PreludeProofs RingSum AssembleModel AssembleProofs GatherModel GatherSpec GatherProofs
  EwcModel EwcProofs VCusProofs AsmModel AsmSpec AsmProofs RowsProofs VRowsProofs StrongModel StrongSpec StrongProofs.
Import ListNotations.

Lemma combine_map2 {A B C E} (f : A -> C) (g : B -> E) : forall l l', combine (map f l) (map g l') = map (fun p => (f (fst p), g (snd p))) (combine l l').
Proof. induction l as [|x l IH]; intros [|y l']; cbn; [reflexivity..|]. f_equal. apply IH. Qed.
Lemma in_combine_some {A B} : forall (l : list A) (l' : list B) x, length l' = length l -> In x l -> exists y, In (x, y) (combine l l').
Proof.
  induction l as [|a l IH]; intros [|b l'] x L H; try discriminate; [destruct H|]. destruct H as [->|H]; [exists b; left; reflexivity|].
  destruct (IH l' x ltac:(cbn in L; lia) H) as (y & Hy). exists y. right. exact Hy.
Qed.
Lemma lookup_dofs_at D r e l : lookup Nat.eqb e (D r) = Some l -> dofs_at D r e = l.
Proof. unfold dofs_at. intros ->. reflexivity. Qed.

Section Sys.
  Variable K : CRing.
  Add Ring KringS : (Rth K).
  Local Open Scope ring_s.
  Variables (SIZE : nat) (rgms : list GMat) (ns : list nat).
  Hypothesis WN : well_numbered SIZE rgms ns.
  Hypothesis RG : forall g, In g rgms -> regular g.
  Notation rv := (CGM_getitem SIZE rgms Silly).
  Notation els r := (elements (nth 0 rgms []) r).
  Variables (i : nat) (g : GMat) (k : nat).
  Hypothesis Hi : nth_error rgms i = Some g.
  Hypothesis Hk : nth_error ns i = Some k.
  Notation si := (sum (firstn i (map gv_len rgms))).
  Notation oi := (sum (firstn i ns)).
  Variable D : nat -> list (nat * list nat).
  Hypothesis HD : in_range SIZE g D.
  Hypothesis SAT : saturated SIZE g D.

  Definition hb (a : nat) : bool := (oi <=? a)%nat && (a <? oi + k)%nat && prescribedb SIZE g D (a - oi).
  Lemma hb_true a : hb a = true <-> exists n, a = (oi + n)%nat /\ (n < k)%nat /\ prescribed SIZE g D n.
  Proof.
    unfold hb. rewrite !andb_true_iff, Nat.leb_le, Nat.ltb_lt, (prescribedb_ok _ _ _ WN i g Hi). split.
    - intros ((H1 & H2) & H3). exists (a - oi)%nat. repeat split; [lia|lia|exact H3].
    - intros (n & -> & H & P). replace (oi + n - oi)%nat with n by lia. repeat split; [lia|lia|exact P].
  Qed.
  (** the positions of a dof of the block in a chained vector *)
  Lemma rowsum r e gi v n (f : nat -> K) : (r < SIZE)%nat -> In e (els r) -> rv r e = Some gi -> gv_of g r e = Some v -> (n < k)%nat ->
    bsum (seq 0 (length gi)) (fun q => if nth q gi O =? oi + n then f q else 0) =
    bsum (filter (fun d => nth d v (S n) =? n) (seq 0 (length v))) (fun d => f (si + d)%nat).
  Proof.
    intros Hr He Eg Ev Hn. rewrite <- bsum_filter. rewrite <- (bsum_map _ (fun d => si + d)%nat). apply bsum_perm. apply NoDup_Permutation.
    - apply NoDup_filter, seq_NoDup.
    - apply FinFun.Injective_map_NoDup; [intros x y Q; lia|]. apply NoDup_filter, seq_NoDup.
    - intros q. rewrite filter_In, in_seq, in_map_iff, Nat.eqb_eq. split.
      + intros (L & Q). destruct (of_block _ _ _ WN RG i g Hi r e gi v q n k Hr He Eg Ev Hk Hn) as (d & -> & Ed).
        { rewrite <- Q. apply nth_error_nth'. lia. }
        exists d. split; [reflexivity|]. rewrite filter_In, in_seq, (nth_error_nth _ _ _ Ed), Nat.eqb_refl. split; [|reflexivity].
        assert (d < length v)%nat by (apply nth_error_Some; congruence). lia.
      + intros (d & <- & H). apply filter_In in H. destruct H as (H & Q). apply in_seq in H. apply Nat.eqb_eq in Q.
        assert (Ed : nth_error v d = Some n) by (rewrite (nth_error_nth' v (S n)) by lia; rewrite Q; reflexivity).
        pose proof (at_block _ _ _ WN RG i g Hi r e gi v d n Hr He Eg Ev Ed) as X. split; [|apply nth_error_nth; exact X].
        assert (si + d < length gi)%nat by (apply nth_error_Some; congruence). lia.
  Qed.
  Lemma sat_in r e v d n : (r < SIZE)%nat -> gv_of g r e = Some v -> prescribed SIZE g D n -> In d (filter (fun d => nth d v (S n) =? n) (seq 0 (length v))) ->
    nth_error v d = Some n /\ In d (dofs_at D r e).
  Proof.
    intros Hr Ev P H. apply filter_In in H. destruct H as (H & Q). apply in_seq in H. apply Nat.eqb_eq in Q.
    assert (Ed : nth_error v d = Some n) by (rewrite (nth_error_nth' v (S n)) by lia; rewrite Q; reflexivity). split; [exact Ed|]. eapply SAT; eassumption.
  Qed.
  Lemma range_D r e l : (r < SIZE)%nat -> lookup Nat.eqb e (D r) = Some l -> exists v, gv_of g r e = Some v /\ Forall (fun d => d < length v)%nat l.
  Proof. intros Hr E. destruct (HD r Hr) as (_ & H). apply H. apply GatherProofs.lookup_In. exact E. Qed.
  Lemma vec_of r e : (r < SIZE)%nat -> In e (els r) -> exists v, gv_of g r e = Some v.
  Proof. exact (vec_some _ _ _ WN RG i g Hi r e). Qed.
  (** a position named is one of a prescribed dof *)
  Lemma named_hit r e gi l q : (r < SIZE)%nat -> In e (els r) -> rv r e = Some gi -> lookup Nat.eqb e (D r) = Some l -> In q (map (fun d => d + si)%nat l) ->
    (q < length gi)%nat /\ hb (nth q gi O) = true.
  Proof.
    intros Hr He Eg El Hq. apply in_map_iff in Hq. destruct Hq as (d & <- & Hd). destruct (range_D r e l Hr El) as (v & Ev & F). rewrite Forall_forall in F.
    specialize (F d Hd). assert (Ed : nth_error v d = Some (nth d v O)) by (apply nth_error_nth'; exact F).
    pose proof (at_block _ _ _ WN RG i g Hi r e gi v d _ Hr He Eg Ev Ed) as X. rewrite (Nat.add_comm d). split; [apply nth_error_Some; congruence|].
    rewrite (nth_error_nth _ _ _ X). apply hb_true. exists (nth d v O). split; [reflexivity|]. split; [eapply (num_lt _ _ _ WN i g Hi); eassumption|].
    exists r, e, v, d. split; [exact Hr|]. split; [exact Ev|]. split; [exact Ed|]. rewrite (lookup_dofs_at _ _ _ _ El). exact Hd.
  Qed.

  (** ** the matrix *)
  Section Mat.
    Variables (cgms : list GMat) (ms : list nat).
    Hypothesis WM : well_numbered SIZE cgms ms.
    Hypothesis RM : forall g, In g cgms -> regular g.
    Hypothesis SC : same_cores SIZE (nth 0 rgms []) (nth 0 cgms []).
    Notation cv := (CGM_getitem SIZE cgms Silly).
    Variables (j : nat) (h : GMat) (kj : nat).
    Hypothesis Hj : nth_error cgms j = Some h.
    Hypothesis Hkj : nth_error ms j = Some kj.
    Notation sj := (sum (firstn j (map gv_len cgms))).
    Notation oj := (sum (firstn j ms)).
    Variable C : nat -> list (nat * list nat).
    Hypothesis HC : in_range SIZE h C.
    Hypothesis PU : paired_up SIZE D C.

    Definition ops (r e : nat) : list (cusop K) :=
      match lookup Nat.eqb e (D r) with Some l => [ilrsac (map (fun d => d + si)%nat l) (map (fun d => d + sj)%nat (dofs_at C r e))] | None => [] end.
    Definition one_at (b : nat) (p : nat * nat * nat) : K := if match partner_number h D C p with Some m => b =? oj + m | None => false end then 1 else 0.
    Definition new_row (n b : nat) : K := bsum (places SIZE g n) (one_at b).

    Lemma partner_of_ok r e d c : (r < SIZE)%nat -> partner D C r e d c -> partner_of D C r e d = Some c.
    Proof.
      intros Hr P. unfold partner_of. destruct (find _ _) as [(d' & c')|] eqn:E.
      - apply find_some in E. destruct E as (E & Q). cbn [fst] in Q. apply Nat.eqb_eq in Q. subst d'. cbn [snd]. f_equal. destruct (PU r Hr) as (_ & _ & U). eapply U; [exact E|exact P].
      - exfalso. apply (find_none _ _ E) in P. cbn [fst] in P. rewrite Nat.eqb_refl in P. discriminate.
    Qed.
    Lemma col_some r e l : (r < SIZE)%nat -> lookup Nat.eqb e (D r) = Some l -> exists l' w, lookup Nat.eqb e (C r) = Some l' /\ gv_of h r e = Some w /\
      dofs_at C r e = l' /\ length l' = length l /\ Forall (fun d => d < length w)%nat l'.
    Proof.
      intros Hr E. destruct (PU r Hr) as (K1 & K2 & _). assert (X : exists l', lookup Nat.eqb e (C r) = Some l').
      { apply GatherProofs.lookup_keys. rewrite K1. apply GatherProofs.lookup_keys. eauto. }
      destruct X as (l' & El'). destruct (HC r Hr) as (_ & H). destruct (H e l' (GatherProofs.lookup_In _ _ _ El')) as (w & Ew & F). exists l', w.
      split; [exact El'|]. split; [exact Ew|]. split; [apply lookup_dofs_at; exact El'|]. split; [|exact F].
      specialize (K2 e). rewrite (lookup_dofs_at _ _ _ _ E), (lookup_dofs_at _ _ _ _ El') in K2. exact K2.
    Qed.

    Lemma mat_step (base : nat -> nat -> lmat K) (cus cus' : cdict K) A :
      sizes_match K SIZE rgms cgms base -> (forall r e, (r < SIZE)%nat -> dget (cus' r) e = dget (cus r) e ++ ops r e) ->
      assembled K SIZE rgms cgms base cus A ->
      assembled K SIZE rgms cgms base cus' (fun a b => if hb a then new_row (a - oi) b else A a b).
    Proof.
      intros SM HO HA.
      destruct (cus_step K SIZE rgms cgms ns ms WN WM SC base cus cus' ops
        (fun r e a b x => if hb a then match gv_of g r e with
           | Some v => bsum (filter (fun d => nth d v (S (a - oi)) =? a - oi) (seq 0 (length v))) (fun d => one_at b (r, e, d)) | None => 0 end else x) A SM HO) as (S & E1 & _ & E2); [|exact HA|].
      - intros r e gi gj M Hr He Eg Ej S1 S2. destruct (vec_of r e Hr He) as (v & Ev). rewrite Ev. unfold ops. destruct (lookup Nat.eqb e (D r)) as [l|] eqn:El.
        + destruct (col_some r e l Hr El) as (l' & w & El' & Ew & EC & LL & FW). rewrite EC.
          assert (Hec : In e (elements (nth 0 cgms []) r)) by (apply SC; assumption).
          destruct (ilrsac_ok K (map (fun d => d + si)%nat l) (map (fun d => d + sj)%nat l') M) as (M' & EM & _ & _ & HE).
          { rewrite !map_length. symmetry. exact LL. }
          { apply Forall_forall. intros q Hq. rewrite S1. eapply named_hit; eassumption. }
          { apply Forall_forall. intros q Hq. apply in_map_iff in Hq. destruct Hq as (c & <- & Hc). rewrite Forall_forall in FW. specialize (FW c Hc).
            assert (Ec : nth_error w c = Some (nth c w O)) by (apply nth_error_nth'; exact FW).
            pose proof (at_block _ _ _ WM RM j h Hj r e gj w c _ Hr Hec Ej Ew Ec) as X. rewrite S2, Nat.add_comm. apply nth_error_Some. congruence. }
          exists M'. cbn [apply_all]. rewrite EM. split; [reflexivity|]. intros a b. destruct (hb a) eqn:Ha.
          * apply hb_true in Ha. destruct Ha as (n & -> & Hn & P). replace (oi + n - oi)%nat with n by lia. rewrite scat_rows.
            transitivity (bsum (seq 0 (length gi)) (fun q => if nth q gi O =? oi + n then bsum (seq 0 (length gj)) (fun q' => if nth q' gj O =? b then ent K M' q q' else 0) else 0)).
            { apply bsum_ext. intros q _. destruct (nth q gi O =? oi + n); [reflexivity|]. apply bsum_0. reflexivity. }
            rewrite (rowsum r e gi v n _ Hr He Eg Ev Hn). apply bsum_ext. intros d Hd. destruct (sat_in r e v d n Hr Ev P Hd) as (Ed & Hdl).
            rewrite (lookup_dofs_at _ _ _ _ El) in Hdl. destruct (in_combine_some l l' d LL Hdl) as (c & Hc).
            assert (PC : partner D C r e d c) by (unfold partner; rewrite (lookup_dofs_at _ _ _ _ El), EC; exact Hc).
            unfold one_at, partner_number. rewrite (partner_of_ok r e d c Hr PC), Ew. rewrite Forall_forall in FW.
            assert (Lc : (c < length w)%nat) by (apply FW; eapply in_combine_r; exact Hc).
            assert (Ec : nth_error w c = Some (nth c w O)) by (apply nth_error_nth'; exact Lc). rewrite Ec.
            pose proof (at_block _ _ _ WM RM j h Hj r e gj w c _ Hr Hec Ej Ew Ec) as X.
            assert (Lq : (sj + c < length gj)%nat) by (apply nth_error_Some; congruence).
            transitivity (bsum (seq 0 (length gj)) (fun q' => if q' =? sj + c then (if b =? oj + nth c w O then (1 : K) else 0) else 0)).
            -- apply bsum_ext. intros q' Hq'. apply in_seq in Hq'. destruct (Nat.eqb_spec q' (sj + c)) as [->|NE].
               ++ rewrite (nth_error_nth _ _ _ X), (Nat.eqb_sym _ b). destruct (b =? oj + nth c w O); [|reflexivity]. apply HE. rewrite combine_map2. apply in_map_iff.
                  exists (d, c). cbn [fst snd]. split; [f_equal; lia|exact Hc].
               ++ destruct (nth q' gj O =? b); [|reflexivity]. rewrite (proj2 (HE _ _)).
                  ** assert (T : existsb (Nat.eqb (si + d)) (map (fun d => d + si)%nat l) = true); [|rewrite T; reflexivity].
                     apply existsb_exists. exists (d + si)%nat. split; [apply in_map_iff; exists d; split; [reflexivity|exact Hdl]|apply Nat.eqb_eq; lia].
                  ** rewrite combine_map2. intros I. apply in_map_iff in I. destruct I as ((d' & c') & Q & I). cbn [fst snd] in Q. injection Q as Q1 Q2. assert (d' = d) by lia. subst d'.
                     apply NE. assert (c' = c) by (destruct (PU r Hr) as (_ & _ & U); apply (U e d); [unfold partner; rewrite (lookup_dofs_at _ _ _ _ El), EC; exact I|exact PC]). lia.
            -- apply (bsum_pick_seq K (length gj) (sj + c) (fun _ => if b =? oj + nth c w O then (1 : K) else 0)). exact Lq.
          * apply scat_ext. intros q q' L1 L2 Q1 Q2.
            assert (NI : ~ In q (map (fun d => d + si)%nat l)).
            { intros I. destruct (named_hit r e gi l q Hr He Eg El I) as (_ & T). rewrite Q1 in T. congruence. }
            rewrite (proj2 (HE _ _)).
            -- destruct (existsb (Nat.eqb q) _) eqn:T; [|reflexivity]. exfalso. apply existsb_exists in T. destruct T as (q1 & T1 & T2). apply Nat.eqb_eq in T2. subst q1. contradiction.
            -- intros I. apply NI. eapply in_combine_l. exact I.
        + exists M. split; [reflexivity|]. intros a b. destruct (hb a) eqn:Ha; [|reflexivity].
          apply hb_true in Ha. destruct Ha as (n & -> & Hn & P). replace (oi + n - oi)%nat with n by lia.
          assert (NO : forall d, ~ In d (filter (fun d => nth d v (Datatypes.S n) =? n) (seq 0 (length v)))).
          { intros d Hd. destruct (sat_in r e v d n Hr Ev P Hd) as (_ & I). unfold dofs_at in I. rewrite El in I. destruct I. }
          rewrite scat_rows.
          transitivity (bsum (seq 0 (length gi)) (fun q => if nth q gi O =? oi + n then bsum (seq 0 (length gj)) (fun q' => if nth q' gj O =? b then ent K M q q' else 0) else 0)).
          { apply bsum_ext. intros q _. destruct (nth q gi O =? oi + n); [reflexivity|]. apply bsum_0. reflexivity. }
          rewrite (rowsum r e gi v n _ Hr He Eg Ev Hn). transitivity (0 : K); [|symmetry]; apply bsum_0; intros d Hd; exfalso; eapply NO; exact Hd.
      - eapply assembled_ext; [|exact E2]. intros a b. cbv beta. destruct (hb a) eqn:Ha.
        + unfold new_row. rewrite (bsum_places _ _ _ WN RG i g Hi). apply bsum_ext. intros r _. apply bsum_ext. intros e _. reflexivity.
        + symmetry. apply E1.
    Qed.
  End Mat.

  (** ** the vector *)
  Variable V : nat -> option (list (nat * list K)).
  Hypothesis HV : valued SIZE D V.
  Definition vals (r e : nat) : list K := match V r with Some c => match lookup Nat.eqb e c with Some vs => vs | None => [] end | None => [] end.
  Definition vops (r e : nat) : list (vcusop K) :=
    match lookup Nat.eqb e (D r) with Some l => [slest (map (fun d => d + si)%nat l) (vals r e)] | None => [] end.

  Lemma vals_ok r e l : (r < SIZE)%nat -> lookup Nat.eqb e (D r) = Some l -> exists c, V r = Some c /\ lookup Nat.eqb e c = Some (vals r e) /\ length (vals r e) = length l.
  Proof.
    intros Hr E. specialize (HV r Hr). unfold vals. destruct (V r) as [c|].
    - destruct (HV e l (GatherProofs.lookup_In _ _ _ E)) as (vs & E1 & E2). exists c. rewrite E1. auto.
    - rewrite HV in E. discriminate.
  Qed.
  Lemma lasta_given ds (vs : list K) (s q : nat) : lasta K (combine (map (fun d => d + s)%nat ds) vs) q = if (s <=? q)%nat then last_given ds vs (q - s) else None.
  Proof.
    revert vs. induction ds as [|d ds IH]; intros [|v vs]; cbn [map combine lasta last_given]; try (destruct (s <=? q)%nat; reflexivity).
    rewrite IH. destruct (Nat.leb_spec s q) as [L|L].
    - destruct (last_given ds vs (q - s)); [reflexivity|]. destruct (Nat.eqb_spec q (d + s)), (Nat.eqb_spec d (q - s)); (reflexivity || lia).
    - destruct (Nat.eqb_spec q (d + s)); [lia|reflexivity].
  Qed.
  Lemma last_given_some ds (vs : list K) d : length vs = length ds -> In d ds -> exists v, last_given ds vs d = Some v.
  Proof.
    revert vs. induction ds as [|x ds IH]; intros [|v vs] L H; try discriminate; [destruct H|]. cbn [last_given].
    destruct (last_given ds vs d) as [w|] eqn:E; [eauto|]. destruct H as [->|H]; [rewrite Nat.eqb_refl; eauto|].
    destruct (IH vs ltac:(cbn in L; lia) H) as (w & Ew). congruence.
  Qed.
  Lemma last_given_in ds (vs : list K) d v : last_given ds vs d = Some v -> In d ds.
  Proof.
    revert vs. induction ds as [|x ds IH]; intros [|w vs] H; try discriminate. cbn [last_given] in H.
    destruct (last_given ds vs d) as [u|] eqn:E; [right; eapply IH; rewrite E; exact H|]. destruct (Nat.eqb_spec x d) as [->|]; [left; reflexivity|discriminate].
  Qed.

  Lemma vec_step (base : nat -> nat -> lvec K) (cus cus' : vdict K) b :
    vsizes_match K SIZE rgms base -> (forall r e, (r < SIZE)%nat -> dget (cus' r) e = dget (cus r) e ++ vops r e) ->
    vassembled K SIZE rgms base cus b ->
    vassembled K SIZE rgms base cus' (fun a => if hb a then bsum (places SIZE g (a - oi)) (value_or_0 D V) else b a).
  Proof.
    intros SM HO (Vs & HVs & HB).
    assert (NEW : forall r e, (r < SIZE)%nat -> In e (els r) -> exists gi v y, rv r e = Some gi /\ gv_of g r e = Some v /\ local_vector K base cus' r e = Some y /\
      forall a, vscat K gi (vent K y) a = if hb a then bsum (filter (fun d => nth d v (S (a - oi)) =? a - oi) (seq 0 (length v))) (fun d => value_or_0 D V (r, e, d)) else vscat K gi (vent K (Vs r e)) a).
    { intros r e Hr He. destruct (vec_of r e Hr He) as (v & Ev). assert (X : exists gi, rv r e = Some gi) by (rewrite (silly_value _ _ _ WN r e Hr He); eauto). destruct X as (gi & Eg).
      pose proof (HVs r e Hr He) as EV. exists gi, v. unfold local_vector in *. rewrite (HO r e Hr), vapply_all_app, EV.
      assert (LV : vlen K (Vs r e) = length gi) by (rewrite (vapply_all_len _ _ _ _ EV); apply (SM r e gi Eg)).
      unfold vops. destruct (lookup Nat.eqb e (D r)) as [l|] eqn:El.
      - cbn [vapply_all vapply]. pose proof (vsets_char K (combine (map (fun d => d + si)%nat l) (vals r e)) (Vs r e)) as VC.
        assert (T : inr K (vlen K (Vs r e)) (combine (map (fun d => d + si)%nat l) (vals r e)) = true).
        { unfold inr. apply forallb_forall. intros (q & x) I. cbn [fst]. apply in_combine_l in I. apply Nat.ltb_lt. rewrite LV. eapply named_hit; eassumption. }
        rewrite T in VC. destruct (vsets K _ (Vs r e)) as [y|]; [|destruct VC]. destruct VC as (_ & VC). cbn [vent] in VC. exists y. split; [exact Eg|]. split; [exact Ev|]. split; [reflexivity|].
        intros a. rewrite vscat_rows. destruct (hb a) eqn:Ha.
        + apply hb_true in Ha. destruct Ha as (n & -> & Hn & P). replace (oi + n - oi)%nat with n by lia. rewrite (rowsum r e gi v n _ Hr He Eg Ev Hn).
          apply bsum_ext. intros d Hd. destruct (sat_in r e v d n Hr Ev P Hd) as (Ed & Hdl). rewrite VC, lasta_given.
          destruct (Nat.leb_spec si (si + d)) as [_|L]; [|lia]. replace (si + d - si)%nat with d by lia.
          destruct (vals_ok r e l Hr El) as (c & E1 & E2 & E3). unfold value_or_0, value_at. rewrite E1, E2. rewrite (lookup_dofs_at _ _ _ _ El) in *.
          destruct (last_given_some l (vals r e) d E3 Hdl) as (x & ->). reflexivity.
        + rewrite vscat_rows. apply bsum_ext. intros q Hq. apply in_seq in Hq. destruct (Nat.eqb_spec (nth q gi O) a) as [Q|]; [|reflexivity].
          rewrite VC, lasta_given. destruct (Nat.leb_spec si q) as [L|L]; [|reflexivity]. destruct (last_given l (vals r e) (q - si)) as [x|] eqn:EL; [|reflexivity].
          exfalso. apply last_given_in in EL. destruct (named_hit r e gi l q Hr He Eg El) as (_ & T2).
          { apply in_map_iff. exists (q - si)%nat. split; [lia|exact EL]. }
          rewrite Q in T2. congruence.
      - exists (Vs r e). split; [exact Eg|]. split; [exact Ev|]. split; [reflexivity|]. intros a. destruct (hb a) eqn:Ha; [|reflexivity].
        apply hb_true in Ha. destruct Ha as (n & -> & Hn & P). replace (oi + n - oi)%nat with n by lia. rewrite vscat_rows, (rowsum r e gi v n _ Hr He Eg Ev Hn).
        transitivity (0 : K); [|symmetry]; apply bsum_0; intros d Hd; exfalso; destruct (sat_in r e v d n Hr Ev P Hd) as (_ & I); unfold dofs_at in I; rewrite El in I; destruct I. }
    exists (fun r e => match local_vector K base cus' r e with Some y => y | None => base r e end). split.
    - intros r e Hr He. destruct (NEW r e Hr He) as (gi & v & y & _ & _ & -> & _). reflexivity.
    - intros a. destruct (hb a) eqn:Ha.
      + rewrite (bsum_places _ _ _ WN RG i g Hi). apply bsum_ext. intros r Hr. apply in_seq in Hr. apply bsum_ext. intros e He.
        destruct (NEW r e ltac:(lia) He) as (gi & v & y & -> & -> & -> & H). rewrite H, Ha. reflexivity.
      + rewrite HB. apply bsum_ext. intros r Hr. apply in_seq in Hr. apply bsum_ext. intros e He.
        destruct (NEW r e ltac:(lia) He) as (gi & v & y & -> & _ & -> & H). rewrite H, Ha. reflexivity.
  Qed.
End Sys.
