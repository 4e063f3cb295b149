(** Proofs about EdgeModel: the counts of types and the numbering of edge forms. *)
From Coq Require Import List Arith Bool Lia Sorted Relations.
From Verif Require Import Prelude PreludeProofs SpaceModel SpaceSpec SpaceProofs MeshModel MeshMapModel MeshMapProofs2 TraceModel TraceSpec TraceProofs TraceProofs2 TraceProofs3 NumModel NumSpec NumProofs NumProofs2 NumProofs3 NumProofs5 NumProofs6 EdgeModel EdgeSpec EdgeProofs EdgeProofs2.
Import ListNotations.

Section Counts.
  Variables (G : nat) (ty : nat -> nat).
  Hypothesis Hty : forall u, u < G -> ty u < 3.
  (** POOL has the entries below K *)
  Definition pool_at (K : nat) (po : list (nat * (nat * nat * nat))) : Prop := K <= G /\ forall t, ndget po t = if t <? K then Some (counts ty t) else None.
  Lemma pool_set K po i : pool_at K po -> i <= K -> i < G -> pool_at (Nat.max K (S i)) (dset Nat.eqb po i (counts ty i)).
  Proof.
    intros [A B] H HG. split; [lia|]. intros t. rewrite (dget_dset _ Nat.eqb_eq), B. destruct (Nat.eqb_spec i t) as [<-|NE].
    - destruct (Nat.ltb_spec i (Nat.max K (S i))); [reflexivity|lia].
    - destruct (Nat.ltb_spec t K); destruct (Nat.ltb_spec t (Nat.max K (S i))); try reflexivity; lia.
  Qed.
  Section Core.
    Variables (es : list (nat * prec)) (na nb : nat).
    Hypothesis ND : NoDup (map fst es).
    Hypothesis HD : forall t r, In (t, r) es -> direction r = Some (ty t).
    Hypothesis H1 : forall t, In t (map fst es) -> t < nb.
    Hypothesis H2 : forall t, na <= t < nb -> In t (map fst es).
    Hypothesis Hnb : nb <= G.
    Hypothesis Hnab : na <= nb.
    Lemma dir_get i : In i (map fst es) -> (match ndget es i with Some r => direction r | None => None end) = Some (ty i).
    Proof.
      intros H. apply (dget_keys _ Nat.eqb_eq) in H as (r & E). rewrite E. apply (dget_In _ Nat.eqb_eq) in E; [|exact ND]. apply HD. exact E.
    Qed.
    Lemma ecount_step K po ta i : In i (map fst es) -> pool_at K po -> i = 0 \/ i < K -> 
      exists po' K', ecount_one G es (Some (po, ta)) i = Some (po', ta ++ [(i, counts ty i)]) /\ pool_at K' po' /\ K <= K' /\ Nat.min (i + 2) G <= K'.
    Proof.
      intros Hi HP Hk. assert (Li : i < nb) by (apply H1; exact Hi). unfold ecount_one. rewrite (dir_get i Hi).
      set (po1 := if i =? 0 then dset Nat.eqb po 0 (0, 0, 0) else po).
      assert (HP1 : pool_at (Nat.max K (S i)) po1).
      { unfold po1. destruct (Nat.eqb_spec i 0) as [->|N0]; [apply (pool_set K po 0 HP); lia|]. replace (Nat.max K (S i)) with K by lia. exact HP. }
      destruct HP1 as [LK Q]. rewrite Q. destruct (Nat.ltb_spec i (Nat.max K (S i))) as [_|]; [|lia].
      assert (T3 := Hty i ltac:(lia)). assert (ED : 2 * ty i / 2 = ty i) by (rewrite Nat.mul_comm; apply Nat.div_mul; lia). rewrite (counts_S ty i (2 * ty i)) by (try rewrite ED; auto; lia).
      rewrite Q. destruct (Nat.ltb_spec (i + 1) (Nat.max K (S i))) as [L|L].
      - replace (i + 1) with (S i) by lia. rewrite cnt_eqb_refl. exists po1, (Nat.max K (S i)). refine (conj eq_refl (conj (conj LK Q) _)). lia.
      - destruct (Nat.eqb_spec (i + 1) G) as [EG|NG].
        + rewrite counts_total by (intros u Hu; apply Hty; lia). rewrite (proj2 (Nat.eqb_eq (S i) G)) by lia. exists po1, (Nat.max K (S i)). refine (conj eq_refl (conj (conj LK Q) _)). lia.
        + exists (dset Nat.eqb po1 (i + 1) (counts ty (S i))), (Nat.max (Nat.max K (S i)) (S (i + 1))). refine (conj eq_refl (conj _ _)); [|lia].
          replace (S i) with (i + 1) at 2 by lia. apply pool_set; [split; assumption|lia|lia].
    Qed.
    Lemma ecount_loop : forall rest done K po ta, (forall x, In x (done ++ rest) <-> In x (map fst es)) -> StronglySorted lt (done ++ rest) -> pool_at K po ->
      (0 < na -> Nat.min (na + 1) G <= K) -> (forall d, In d done -> Nat.min (d + 2) G <= K) ->
      exists po' K', fold_left (ecount_one G es) rest (Some (po, ta)) = Some (po', ta ++ map (fun i => (i, counts ty i)) rest) /\ pool_at K' po' /\ K <= K' /\ (forall d, In d (done ++ rest) -> Nat.min (d + 2) G <= K').
    Proof.
      induction rest as [|i rest IH]; intros done K po ta HK SS HP HA HB.
      - exists po, K. cbn [fold_left map]. rewrite !app_nil_r. auto.
      - cbn [fold_left map]. assert (Hi : In i (map fst es)) by (apply HK; apply in_or_app; right; now left). assert (Li := H1 i Hi).
        assert (Hk : i = 0 \/ i < K).
        { destruct (Nat.eq_dec i 0) as [->|N0]; [now left|right]. destruct (Nat.lt_ge_cases na i) as [L|L]; [|specialize (HA ltac:(lia)); lia].
          assert (X : In (i - 1) (done ++ i :: rest)) by (apply HK, H2; lia). apply in_app_or in X. destruct X as [X|[X|X]]; [specialize (HB _ X); lia|lia|].
          apply SS_app in SS. destruct SS as (_ & SS & _). inversion SS as [|? ? _ FA]; subst. rewrite Forall_forall in FA. specialize (FA _ X). lia. }
        destruct (ecount_step K po ta i Hi HP Hk) as (po1 & K1 & E1 & P1 & L1 & L2). rewrite E1.
        replace (done ++ i :: rest) with ((done ++ [i]) ++ rest) in * by (rewrite <- app_assoc; reflexivity).
        destruct (IH (done ++ [i]) K1 po1 (ta ++ [(i, counts ty i)]) HK SS P1) as (po2 & K2 & E2 & P2 & L3 & L4).
        + intros X. specialize (HA X). lia.
        + intros d Hd. apply in_app_or in Hd. destruct Hd as [Hd|[<-|[]]]; [specialize (HB d Hd); lia|exact L2].
        + exists po2, K2. rewrite E2, <- app_assoc. refine (conj eq_refl (conj P2 (conj _ L4))). lia.
    Qed.
    Let ta := map (fun i => (i, counts ty i)) (sorted (map fst es)).
    Lemma echeck_ok : echeck es ta = true.
    Proof.
      unfold echeck. apply forallb_forall. intros [i c] H. unfold ta in H. apply in_map_iff in H. destruct H as (i' & Q & Hi). assert (i' = i) by congruence. subst i'. assert (c = counts ty i) by congruence. subst c. clear Q.
      apply (proj1 (sorted_In _ _)) in Hi. assert (Li := H1 i Hi). cbn [fst snd]. apply andb_true_intro. split; [apply Nat.eqb_eq, counts_total; intros u Hu; apply Hty; lia|].
      destruct (Nat.ltb_spec 0 i) as [L0|L0]; [|reflexivity]. unfold ta. rewrite dget_pairs. destruct (mem (i - 1) (sorted (map fst es))) eqn:M; [|reflexivity].
      apply mem_spec in M. apply (proj1 (sorted_In _ _)) in M. rewrite (dir_get _ M). assert (T3 := Hty (i - 1) ltac:(lia)). assert (ED : 2 * ty (i - 1) / 2 = ty (i - 1)) by (rewrite Nat.mul_comm; apply Nat.div_mul; lia).
      rewrite (counts_S ty (i - 1) (2 * ty (i - 1))) by (try rewrite ED; auto; lia). replace (S (i - 1)) with i by lia. apply cnt_eqb_refl.
    Qed.
    Lemma ecount_core_ok K po out : pool_at K po -> (0 < na -> Nat.min (na + 1) G <= K) ->
      exists po' K', ecount_core G (Some (po, out)) es = Some (po', out ++ [ta]) /\ pool_at K' po' /\ (0 < nb -> Nat.min (nb + 1) G <= K').
    Proof.
      intros HP HA. unfold ecount_core.
      destruct (ecount_loop (sorted (map fst es)) [] K po []) as (po' & K' & E & P & L1 & L2); auto.
      - intros x. cbn [app]. apply sorted_In.
      - cbn [app]. apply sorted_sorted. exact ND.
      - intros d [].
      - cbn [app] in *. rewrite E. fold ta. rewrite echeck_ok. exists po', K'. refine (conj eq_refl (conj P _)). intros X. destruct (Nat.eq_dec na nb) as [EE|NE]; [subst nb; specialize (HA X); lia|].
        assert (Y : In (nb - 1) (map fst es)) by (apply H2; lia). apply (proj2 (sorted_In _ _)) in Y. specialize (L2 _ Y). lia.
    Qed.
  End Core.
End Counts.

(** the core's edges are those of its elements; [gm] consecutive and prefixed *)
Section Edges.
  Variables (gms : list (list (nat * list nat))) (N G : nat) (ess : list (list (nat * prec))).
  Let gm := concat gms.
  Hypothesis Hk : map fst gm = seq 0 N.
  Hypothesis HC : consecutive gm G.
  Hypothesis HP : prefixed gm.
  Hypothesis H12 : forall e v, In (e, v) gm -> length v = 12.
  Hypothesis HE : Forall2 (fun g es => NoDup (map fst es) /\ (forall t, In t (map fst es) <-> exists e i, entry g e i t) /\ forall t r, In (t, r) es -> places r <> [] /\ forall e i, In (e, i) (places r) -> entry gm e i t) gms ess.
  Variable ty : nat -> nat.
  Hypothesis Hdir : forall e i t, entry gm e i t -> ty t = i / 4.
  Lemma entry_lt e i t : entry gm e i t -> t < G /\ e < N /\ i < 12.
  Proof.
    intros (v & Hv & Hi). refine (conj _ (conj _ _)).
    - apply HC. exists e, v. split; [exact Hv|]. eapply nth_error_In. exact Hi.
    - assert (X := in_map fst _ _ Hv). rewrite Hk in X. apply in_seq in X. cbn [fst] in X. lia.
    - rewrite <- (H12 e v Hv). apply nth_error_Some. congruence.
  Qed.
  Lemma entry_ex t : t < G -> exists e i, entry gm e i t.
  Proof. intros H. apply HC in H. destruct H as (e & v & Hv & Ht). apply In_nth_error in Ht. destruct Ht as [i Hi]. exists e, i, v. auto. Qed.
  Lemma ty3 t : t < G -> ty t < 3.
  Proof. intros H. destruct (entry_ex t H) as (e & i & X). rewrite (Hdir _ _ _ X). apply entry_lt in X. apply Nat.div_lt_upper_bound; lia. Qed.
  Lemma dir_ty t r : places r <> [] -> (forall e i, In (e, i) (places r) -> entry gm e i t) -> direction r = Some (ty t).
  Proof. unfold direction. destruct (places r) as [|[e i] l]; [contradiction|]. intros _ H. rewrite (Hdir e i t); [reflexivity|]. apply H. now left. Qed.
  Lemma ess_counts : forall gs es' done na K po out, Forall2 (fun g es => NoDup (map fst es) /\ (forall t, In t (map fst es) <-> exists e i, entry g e i t) /\ forall t r, In (t, r) es -> places r <> [] /\ forall e i, In (e, i) (places r) -> entry gm e i t) gs es' ->
    gms = done ++ gs -> (forall m, m < na <-> exists f v, f < length (concat done) /\ In (f, v) gm /\ In m v) -> pool_at G ty K po -> (0 < na -> Nat.min (na + 1) G <= K) ->
    exists po', fold_left (ecount_core G) es' (Some (po, out)) = Some (po', out ++ map (fun es => map (fun i => (i, counts ty i)) (sorted (map fst es))) es').
  Proof.
    induction gs as [|g gs IH]; intros es' done na K po out F E Hna PP PK; inversion F as [|? es ? es2 (F1 & F2 & F3) FT]; subst es'.
    - exists po. cbn. rewrite app_nil_r. reflexivity.
    - cbn [fold_left map]. destruct (HP (length (concat done) + length g)) as [nb Hnb].
      assert (KEY : forall e v, In (e, v) g <-> length (concat done) <= e < length (concat done) + length g /\ In (e, v) gm).
      { assert (EG : gm = concat done ++ g ++ concat gs) by (unfold gm; rewrite E, concat_app; reflexivity).
        assert (P : forall e v, In (e, v) gm <-> nth_error gm e = Some (e, v)).
        { intros e v. split; [|apply nth_error_In]. intros HH. apply In_nth_error in HH. destruct HH as [n Hn]. assert (X := map_nth_error fst n gm Hn). rewrite Hk in X. cbn [fst] in X.
          assert (LN : n < N) by (rewrite <- (seq_length N 0); apply nth_error_Some; congruence). rewrite nth_error_seq_lt in X by exact LN. injection X as <-. exact Hn. }
        intros e v. split.
        - intros HH. assert (HG : In (e, v) gm) by (rewrite EG; apply in_app_iff; right; apply in_app_iff; now left). split; [|exact HG]. apply In_nth_error in HH. destruct HH as [n Hn].
          assert (LN : n < length g) by (apply nth_error_Some; congruence).
          assert (X : nth_error gm (length (concat done) + n) = Some (e, v)) by (rewrite EG, nth_error_app2 by lia; rewrite nth_error_app1 by lia; replace (length (concat done) + n - length (concat done)) with n by lia; exact Hn).
          assert (Y := map_nth_error fst _ gm X). rewrite Hk in Y. cbn [fst] in Y. assert (LL : length (concat done) + n < N) by (rewrite <- (seq_length N 0); apply nth_error_Some; congruence). rewrite nth_error_seq_lt in Y by exact LL. injection Y as Y. lia.
        - intros [L HH]. apply P in HH. rewrite EG, nth_error_app2 in HH by lia. rewrite nth_error_app1 in HH by lia. eapply nth_error_In. exact HH. }
      assert (NAB : na <= nb).
      { destruct na as [|na']; [lia|]. assert (X := proj1 (Hna na') ltac:(lia)). destruct X as (f & v & L & X). assert (na' < nb); [|lia]. apply Hnb. exists f, v. split; [lia|exact X]. }
      destruct (ecount_core_ok G ty ty3 es na nb) with (K := K) (po := po) (out := out) as (po1 & K1 & E1 & P1 & L1).
      + exact F1.
      + intros t r Hr. apply dir_ty; apply (F3 t r Hr).
      + intros t Ht. apply F2 in Ht. destruct Ht as (e & i & v & Hv & Hi). apply Hnb. apply KEY in Hv. exists e, v. refine (conj _ (conj (proj2 Hv) _)); [lia|eapply nth_error_In; exact Hi].
      + intros t Ht. apply F2. assert (X := proj1 (Hnb t) ltac:(lia)). destruct X as (f & v & L & Hv & Hi). destruct (Nat.lt_ge_cases f (length (concat done))) as [LF|LF].
        * exfalso. assert (t < na) by (apply Hna; exists f, v; auto). lia.
        * apply In_nth_error in Hi. destruct Hi as [i Hi]. exists f, i, v. split; [apply KEY; auto|exact Hi].
      + destruct nb as [|nb']; [lia|]. assert (X := proj1 (Hnb nb') ltac:(lia)). destruct X as (f & v & _ & Hv & Hi). apply HC. eauto.
      + exact NAB.
      + exact PP.
      + exact PK.
      + rewrite E1. destruct (IH es2 (done ++ [g]) nb K1 po1 (out ++ [map (fun i => (i, counts ty i)) (sorted (map fst es))]) FT) as (po2 & E2).
        * rewrite <- app_assoc. exact E.
        * intros m. rewrite concat_app, app_length. cbn [concat]. rewrite app_nil_r. apply Hnb.
        * exact P1.
        * exact L1.
        * exists po2. rewrite E2, <- app_assoc. reflexivity.
  Qed.
  Theorem amounts_ok : edge_amounts G ess = Some (map (fun es => map (fun i => (i, counts ty i)) (sorted (map fst es))) ess).
  Proof.
    unfold edge_amounts. destruct (ess_counts gms ess [] 0 0 [] [] HE eq_refl) as (po & E).
    - intros m. split; [lia|]. intros (f & v & L & _). cbn in L. lia.
    - split; [lia|]. intros t. reflexivity.
    - lia.
    - rewrite E. reflexivity.
  Qed.
  (** ** edge forms *)
  Variable D : nat -> nat.
  Definition eoff (t : nat) : nat := sum (map (fun u => D (ty u)) (seq 0 t)).
  Let rng (t : nat) : list nat := seq (eoff t) (D (ty t)).
  Lemma in_rng t d : In d (rng t) <-> exists i, i < D (ty t) /\ d = eoff t + i.
  Proof. unfold rng. rewrite in_seq. split; [intros H; exists (d - eoff t); lia|intros (i & H & ->); lia]. Qed.
  Lemma rng_disjoint t u d : In d (rng t) -> In d (rng u) -> t = u.
  Proof. intros A B. apply in_rng in A, B. destruct A as (i & Hi & ->). destruct B as (k & Hk' & E). unfold eoff in E. apply (sum_map_inj (fun u => D (ty u)) t i u k Hi Hk') in E. apply E. Qed.
  Lemma eew_ok es : NoDup (map fst es) -> (forall t, In t (map fst es) -> t < G) -> (forall t r, In (t, r) es -> direction r = Some (ty t)) ->
    gm_eew D es (map (fun i => (i, counts ty i)) (sorted (map fst es))) = Some (map (fun i => (i, rng i)) (sorted (map fst es))).
  Proof.
    intros ND LT HD. unfold gm_eew. apply all_some_fun. intros i Hi. rewrite dget_pairs. rewrite (proj2 (mem_spec i _) Hi). apply (proj1 (sorted_In _ _)) in Hi. rewrite (dir_get ty es ND HD i Hi).
    unfold rng, eoff. rewrite start_counts; [reflexivity|]. intros u Hu. apply ty3. specialize (LT i Hi). lia.
  Qed.
  Let erow (ev : nat * list nat) : nat * list nat := (fst ev, concat (map rng (snd ev))).
  Lemma egm_ok g (es : list (nat * prec)) : (forall t, In t (map fst es) <-> exists e i, entry g e i t) -> gm_trace (map (fun i => (i, rng i)) (sorted (map fst es))) g = Some (map erow g).
  Proof.
    intros HI. unfold gm_trace. apply all_some_fun. intros [e v] Hv. cbn [fst snd]. rewrite (all_some_fun _ rng); [reflexivity|]. intros t Ht. rewrite dget_pairs. rewrite (proj2 (mem_spec t _)); [reflexivity|]. apply sorted_In, HI. apply In_nth_error in Ht. destruct Ht as [i Hi]. exists e, i, v. auto.
  Qed.
  Lemma eew_num_ok g (es : list (nat * prec)) : NoDup (map fst es) -> (forall t, In t (map fst es) <-> exists e i, entry g e i t) -> eew_num (map (fun i => (i, rng i)) (sorted (map fst es))) = local_num (map erow g).
  Proof.
    intros ND HI. unfold eew_num, local_num. rewrite map_map. cbn [snd].
    assert (SL : forall l, sum (map (fun i => length (rng i)) l) = length (flat_map rng l)). { induction l as [|x l IH]; [reflexivity|]. cbn [map flat_map]. rewrite sum_cons, app_length, IH. reflexivity. }
    rewrite SL. assert (NDF : NoDup (flat_map rng (sorted (map fst es)))).
    { apply NoDup_flat_map; [|intros t _; apply seq_NoDup|intros t u d _ _ A B; eapply rng_disjoint; eassumption]. apply sorted_sorted in ND. clear - ND. induction ND as [|z l Q1 Q2 Q3]; constructor; [|assumption]. rewrite Forall_forall in Q3. intros X. apply Q3 in X. lia. }
    assert (EQ : forall d, In d (flat_map rng (sorted (map fst es))) <-> In d (flat_map snd (map erow g))).
    { intros d. rewrite !in_flat_map. split.
      - intros (t & Ht & Hd). apply (proj1 (sorted_In _ _)), HI in Ht. destruct Ht as (e & i & v & Hv & Hi). exists (erow (e, v)). split; [apply in_map; exact Hv|]. cbn [erow snd]. apply in_concat. exists (rng t). split; [apply in_map; eapply nth_error_In; exact Hi|exact Hd].
      - intros (ev & Hev & Hd). apply in_map_iff in Hev. destruct Hev as ([e v] & <- & Hv). cbn [erow snd] in Hd. apply in_concat in Hd. destruct Hd as (l & Hl & Hd). apply in_map_iff in Hl. destruct Hl as (t & <- & Ht). exists t. split; [|exact Hd]. apply sorted_In, HI. apply In_nth_error in Ht. destruct Ht as [i Hi]. exists e, i, v. auto. }
    apply Nat.le_antisymm; apply NoDup_incl_length; auto using NoDup_nodup.
    - intros d Hd. apply nodup_In, EQ. exact Hd.
    - intros d Hd. apply nodup_In in Hd. apply EQ. exact Hd.
  Qed.
  Let total_dofs := eoff G.
  Theorem edge_dofs_ok : all_some (map (fun x => let '(es, (ta, mp)) := x in edge_gathering D es ta mp) (combine ess (combine (map (fun es => map (fun i => (i, counts ty i)) (sorted (map fst es))) ess) gms))) = Some (map (fun g => (map erow g, local_num (map erow g))) gms) /\
    (forall e v, In (e, v) (concat (map (map erow) gms)) -> length v = 4 * (D 0 + D 1 + D 2)) /\
    (forall e j i d f k l d', edge_dof D (concat (map (map erow) gms)) e j i d -> edge_dof D (concat (map (map erow) gms)) f k l d' -> d = d' <-> i = l /\ exists t, entry gm e j t /\ entry gm f k t) /\
    (forall d, d < total_dofs <-> exists e j i, edge_dof D (concat (map (map erow) gms)) e j i d).
  Proof.
    split.
    - assert (SUB : forall g, In g gms -> forall e i t, entry g e i t -> entry gm e i t) by (intros g Hg e i t (v & Hv & Hi); exists v; split; [unfold gm; apply in_concat; exists g; auto|exact Hi]).
      assert (LTG := fun e i t X => proj1 (entry_lt e i t X)).
      assert (A : forall gs es', incl gs gms -> Forall2 (fun g es => NoDup (map fst es) /\ (forall t, In t (map fst es) <-> exists e i, entry g e i t) /\ forall t r, In (t, r) es -> places r <> [] /\ forall e i, In (e, i) (places r) -> entry gm e i t) gs es' ->
        all_some (map (fun x => let '(es, (ta, mp)) := x in edge_gathering D es ta mp) (combine es' (combine (map (fun es => map (fun i => (i, counts ty i)) (sorted (map fst es))) es') gs))) = Some (map (fun g => (map erow g, local_num (map erow g))) gs)).
      { induction gs as [|g gs IH]; intros es' IC F; inversion F as [|? es ? es2 (F1 & F2 & F3) FT]; subst es'; [reflexivity|]. cbn [map combine all_some]. unfold edge_gathering at 1. rewrite eew_ok.
        - rewrite (egm_ok g es F2). cbn [option_map]. rewrite (eew_num_ok g es F1 F2). rewrite (IH es2); [reflexivity| |exact FT]. intros z Hz. apply IC. now right.
        - exact F1.
        - intros t Ht. apply F2 in Ht. destruct Ht as (e & i & X). apply (LTG e i). apply (SUB g); [apply IC; now left|exact X].
        - intros t r Hr. apply dir_ty; apply (F3 t r Hr). }
      apply A; [apply incl_refl|exact HE].
    - rewrite <- concat_map. fold gm. set (w := fun k => D (k / 4)).
      assert (ROW : forall e v, In (e, v) gm -> concat (map rng v) = concat (map (fun j => rng (nth j v 0)) (seq 0 12)) /\ forall j, j < 12 -> ty (nth j v 0) = j / 4 /\ entry gm e j (nth j v 0)).
      { intros e v Hv. assert (L := H12 e v Hv). split.
        - f_equal. rewrite <- (map_map (fun j => nth j v 0) rng). f_equal. clear - L. apply nth_ext with (d := 0) (d' := 0); [rewrite map_length, seq_length; exact L|]. intros n Hn. rewrite nth_map_lt with (d' := 0) by (rewrite seq_length; lia). rewrite nth_seq0 by lia. reflexivity.
        - intros j Hj. assert (X : entry gm e j (nth j v 0)) by (exists v; split; [exact Hv|apply nth_error_nth'; lia]). split; [apply (Hdir e); exact X|exact X]. }
      assert (PL : forall e v j i, In (e, v) gm -> j < 12 -> i < w j -> nth_error (concat (map rng v)) (sum (map w (seq 0 j)) + i) = Some (eoff (nth j v 0) + i)).
      { intros e v j i Hv Hj Hi. destruct (ROW e v Hv) as [R1 R2]. rewrite R1.
        assert (R3 : map (fun j => rng (nth j v 0)) (seq 0 12) = map (fun j => seq (eoff (nth j v 0)) (w j)) (seq 0 12)). { apply map_ext_in. intros k K. apply in_seq in K. unfold rng, w. rewrite (proj1 (R2 k ltac:(lia))). reflexivity. }
        rewrite R3. rewrite (nth_error_flat (fun j => seq (eoff (nth j v 0)) (w j)) w) by (auto using seq_length). apply nth_error_seq_lt. exact Hi. }
      assert (SD : forall e j i d, edge_dof D (map erow gm) e j i d <-> exists t, entry gm e j t /\ i < D (ty t) /\ d = eoff t + i).
      { intros e j i d. unfold edge_dof. split.
        - intros (Hj & Hi & u & Hu & Eu). apply in_map_iff in Hu. destruct Hu as ([e' v] & Q & Hv). assert (e' = e) by (assert (Y := f_equal fst Q); exact Y). subst e'. assert (Q2 := f_equal snd Q). cbn [erow snd] in Q2. subst u. assert (PL' := PL e v j i Hv Hj Hi). unfold w in PL'. unfold erow in Eu. cbn [fst snd] in Eu. rewrite PL' in Eu. injection Eu as <-.
          destruct (ROW e v Hv) as [_ R2]. destruct (R2 j Hj) as [R3 R4]. exists (nth j v 0). rewrite R3. auto.
        - intros (t & X & Hi & ->). rewrite (Hdir _ _ _ X) in Hi. assert (X' := entry_lt _ _ _ X). destruct X as (v & Hv & Hj). refine (conj _ (conj Hi _)); [lia|]. exists (concat (map rng v)). split; [apply in_map_iff; exists (e, v); auto|]. assert (PL' := PL e v j i Hv ltac:(lia) Hi). unfold w in PL'. rewrite PL'. rewrite (nth_error_nth _ _ 0 Hj). reflexivity. }
      refine (conj _ (conj _ _)).
      + intros e u Hu. apply in_map_iff in Hu. destruct Hu as ([e' v] & Q & Hv). assert (Q2 := f_equal snd Q). cbn [erow snd] in Q2. subst u. destruct (ROW e' v Hv) as [R1 R2]. rewrite R1.
        assert (R3 : map (fun j => rng (nth j v 0)) (seq 0 12) = map (fun j => seq (eoff (nth j v 0)) (w j)) (seq 0 12)). { apply map_ext_in. intros k K. apply in_seq in K. unfold rng, w. rewrite (proj1 (R2 k ltac:(lia))). reflexivity. }
        rewrite R3. cbn [seq map concat]. rewrite !app_length, !seq_length. unfold w. cbn [length]. change (0 / 4) with 0. change (1 / 4) with 0. change (2 / 4) with 0. change (3 / 4) with 0. change (4 / 4) with 1. change (5 / 4) with 1. change (6 / 4) with 1. change (7 / 4) with 1. change (8 / 4) with 2. change (9 / 4) with 2. change (10 / 4) with 2. change (11 / 4) with 2. lia.
      + intros e j i d f k l d' X Y. apply SD in X, Y. destruct X as (t & X1 & X2 & ->). destruct Y as (u & Y1 & Y2 & ->). split.
        * intros Q. unfold eoff in Q. apply (sum_map_inj (fun u => D (ty u)) t i u l X2 Y2) in Q. destruct Q as [-> ->]. split; [reflexivity|]. exists u. auto.
        * intros (-> & x & Q1 & Q2). assert (T : forall e j t u, entry gm e j t -> entry gm e j u -> t = u).
          { intros e0 j0 t0 u0 (v & Hv & E1) (v' & Hv' & E2). assert (ND : NoDup (map fst gm)) by (rewrite Hk; apply seq_NoDup). apply (dget_In _ Nat.eqb_eq _ _ _ ND) in Hv, Hv'. congruence. }
          rewrite (T _ _ _ _ X1 Q1), (T _ _ _ _ Y1 Q2). reflexivity.
      + intros d. unfold total_dofs. split.
        * intros Hd. apply sum_map_find in Hd. destruct Hd as (t & i & Ht & Hi & ->). destruct (entry_ex t Ht) as (e & j & X). exists e, j, i. apply SD. exists t. auto.
        * intros (e & j & i & X). apply SD in X. destruct X as (t & X1 & X2 & ->). assert (Lt := proj1 (entry_lt _ _ _ X1)). pose proof (sum_map_le (fun u => D (ty u)) (S t) G Lt) as Q'. rewrite sum_map_S in Q'. unfold eoff. lia.
  Qed.
End Edges.
