(** Proofs about TraceModel: trace elements of the maps of all cores, and of a mesh. *)
From Coq Require Import List Arith Bool Lia.
From Verif Require Import Prelude PreludeProofs SpaceModel MeshModel MeshSpec MeshMapSpec MeshProofs MeshProofs2 MeshMapModel MeshMapProofs MeshMapProofs2 MeshMapProofs3 TraceModel TraceSpec TraceProofs.
Import ListNotations.

Lemma side_eqb_spec s t : side_eqb s t = true <-> s = t.
Proof. destruct s as [a u], t as [b v]. unfold side_eqb. cbn [fst snd]. rewrite andb_true_iff, Nat.eqb_eq, Bool.eqb_true_iff. split; [intros [-> ->]; reflexivity|intros [= -> ->]; auto]. Qed.
Lemma epair_eqb_spec a b : epair_eqb a b = true <-> a = b.
Proof.
  destruct a as [[[e1 s1] s2] e2], b as [[[f1 t1] t2] f2]. unfold epair_eqb. rewrite !andb_true_iff, !Nat.eqb_eq, !side_eqb_spec.
  split; [intros [[[-> ->] ->] ->]; reflexivity|intros [= -> -> -> ->]; auto].
Qed.
Lemma in_pairs p ups : existsb (epair_eqb p) ups = true <-> In p ups.
Proof. rewrite existsb_exists. split; [intros (x & H & E); apply epair_eqb_spec in E; subst; exact H|]. intros H. exists p. split; [exact H|apply epair_eqb_spec; reflexivity]. Qed.
Lemma on_pb_spec ups e j f : j < 6 -> on_pb ups e j f = true <-> In (e, side_of j, side_of (facing j), f) ups \/ In (f, side_of (facing j), side_of j, e) ups.
Proof. intros Hj. unfold on_pb. rewrite (opp_facing j Hj), orb_true_iff, !in_pairs. reflexivity. Qed.

Lemma nth_map_seq_lt {A} (f : nat -> A) n i : i < n -> nth_error (map f (seq 0 n)) i = Some (f i).
Proof. intros H. rewrite nth_error_map_seq, (proj2 (Nat.ltb_lt i n) H). reflexivity. Qed.
Lemma app_inj_len {A} (l1 : list A) : forall l1' l2 l2', length l1 = length l1' -> l1 ++ l2 = l1' ++ l2' -> l1 = l1' /\ l2 = l2'.
Proof. induction l1 as [|x l1 IH]; intros [|y l1'] l2 l2' L E; try discriminate; [auto|]. cbn in *. injection E as -> E. injection L as L. destruct (IH _ _ _ L E) as [-> ->]. auto. Qed.
Section Ms.
  Context (N : nat) (ms : list emap).
  Hypothesis HK : map fst (concat ms) = seq 0 N.
  Hypothesis H6 : forall e row, In (e, row) (concat ms) -> length row = 6.
  Hypothesis HM : forall e j f, entry (concat ms) e j (El f) -> entry (concat ms) f (facing j) (El e).

  Definition Bm (e j : nat) : beside := match dget Nat.eqb (concat ms) e with Some row => nth j row (Bd 0) | None => Bd 0 end.
  Lemma ms_get e row : dget Nat.eqb (concat ms) e = Some row <-> In (e, row) (concat ms).
  Proof. apply dget_In; [apply Nat.eqb_eq|]. rewrite HK. apply seq_NoDup. Qed.
  Lemma Bm_row e row : In (e, row) (concat ms) -> row = map (Bm e) (seq 0 6).
  Proof.
    intros H. pose proof (H6 e row H) as L. apply ms_get in H. apply list_ext_nth_error. intros i. unfold Bm. rewrite H. destruct (Nat.lt_ge_cases i 6) as [Hi|Hi].
    - rewrite nth_map_seq_lt by exact Hi. apply nth_error_nth'. lia.
    - rewrite (proj2 (nth_error_None row i)) by lia. symmetry. apply nth_error_None. rewrite map_length, seq_length. exact Hi.
  Qed.
  Lemma Bm_entry e j x : entry (concat ms) e j x <-> e < N /\ j < 6 /\ Bm e j = x.
  Proof.
    split.
    - intros (row & H & E). pose proof (H6 e row H) as L. assert (Hj : j < 6) by (rewrite <- L; apply nth_error_Some; congruence). split; [|split; [exact Hj|]].
      + apply (in_map fst) in H. rewrite HK in H. apply in_seq in H. cbn in H. lia.
      + rewrite (Bm_row e row H) in E. rewrite nth_map_seq_lt in E by exact Hj. injection E as E. exact E.
    - intros (He & Hj & <-). assert (H : In e (map fst (concat ms))) by (rewrite HK; apply in_seq; lia). apply in_map_iff in H as ([e' row] & <- & H). exists row. split; [exact H|].
      cbn [fst]. rewrite (Bm_row e' row H) at 1. apply nth_map_seq_lt. exact Hj.
  Qed.
  Lemma BmS e j f : e < N -> j < 6 -> Bm e j = El f -> f < N /\ Bm f (facing j) = El e.
  Proof. intros He Hj E. assert (X : entry (concat ms) e j (El f)) by (apply Bm_entry; auto). apply HM in X. apply Bm_entry in X as (A & _ & C). auto. Qed.

  Lemma brows_entry a n e j x : entry (brows Bm a n) e j x <-> a <= e < a + n /\ j < 6 /\ x = Bm e j.
  Proof.
    unfold entry, brows. split.
    - intros (row & H & E). apply in_map_iff in H as (e' & Q & H). pose proof (f_equal fst Q) as Q1. pose proof (f_equal snd Q) as Q2. cbn [fst snd] in Q1, Q2. clear Q. subst e' row. apply in_seq in H. split; [lia|].
      destruct (Nat.lt_ge_cases j 6) as [L|L]; [split; [exact L|]; rewrite nth_map_seq_lt in E by exact L; injection E as <-; reflexivity|].
      rewrite (proj2 (nth_error_None _ _)) in E; [discriminate|]. rewrite map_length, seq_length. exact L.
    - intros (H & Hj & ->). exists (map (Bm e) (seq 0 6)). split; [apply in_map_iff; exists e; split; [reflexivity|apply in_seq; lia]|]. apply nth_map_seq_lt. exact Hj.
  Qed.
  Lemma trows_entry (t : nat -> nat -> nat) a n e j x : entry (map (fun e => (e, map (t e) (seq 0 6))) (seq a n)) e j x <-> a <= e < a + n /\ j < 6 /\ x = t e j.
  Proof.
    unfold entry. split.
    - intros (row & H & E). apply in_map_iff in H as (e' & Q & H). pose proof (f_equal fst Q) as Q1. pose proof (f_equal snd Q) as Q2. cbn [fst snd] in Q1, Q2. clear Q. subst e' row. apply in_seq in H. split; [lia|].
      destruct (Nat.lt_ge_cases j 6) as [L|L]; [split; [exact L|]; rewrite nth_map_seq_lt in E by exact L; injection E as <-; reflexivity|].
      rewrite (proj2 (nth_error_None _ _)) in E; [discriminate|]. rewrite map_length, seq_length. exact L.
    - intros (H & Hj & ->). exists (map (t e) (seq 0 6)). split; [apply in_map_iff; exists e; split; [reflexivity|apply in_seq; lia]|]. apply nth_map_seq_lt. exact Hj.
  Qed.
  Lemma rows_eq (l : emap) a n : map fst l = seq a n -> (forall e row, In (e, row) l -> In (e, row) (concat ms)) -> l = brows Bm a n.
  Proof.
    intros H1 H2. unfold brows. rewrite <- H1, map_map. rewrite <- (map_id l) at 1. apply map_ext_in. intros [e row] H. cbn [fst]. f_equal. apply Bm_row. apply H2. exact H.
  Qed.
  Lemma cut_intro : forall l ups a n, map fst (concat l) = seq a n -> (forall e row, In (e, row) (concat l) -> In (e, row) (concat ms)) -> Forall2 selfp l ups -> cut Bm a (combine l ups) (a + n).
  Proof.
    induction l as [|m l IH]; intros ups a n H1 H2 H3; inversion H3 as [|x up y ups' HS1 HS2]; subst.
    - cbn in H1. destruct n; [|discriminate]. rewrite Nat.add_0_r. constructor.
    - cbn [concat] in H1. rewrite map_app in H1.
      assert (X : map fst m = seq a (length m) /\ map fst (concat l) = seq (a + length m) (n - length m) /\ length m <= n).
      { assert (L : length m <= n) by (apply (f_equal (@length _)) in H1; rewrite app_length, !map_length, seq_length in H1; lia).
        replace n with (length m + (n - length m)) in H1 by lia. rewrite seq_app in H1. apply app_inj_len in H1 as [E1 E2]; [auto|]. rewrite map_length, seq_length. reflexivity. }
      destruct X as (X1 & X2 & X3). cbn [combine].
      assert (EM : m = brows Bm a (length m)) by (apply rows_eq; [exact X1|intros e row H; apply H2; cbn; apply in_or_app; auto]).
      rewrite EM. replace (a + n) with (a + length m + (n - length m)) by lia. constructor.
      + intros e j He Hj E. apply on_pb_spec; [exact Hj|]. apply HS1. rewrite EM. apply brows_entry. auto.
      + apply IH; auto. intros e row H. apply H2. cbn. apply in_or_app. auto.
  Qed.
  Lemma cutres_core a cs outs b : cut Bm a cs b -> b <= N -> cutres Bm a cs outs -> Forall2 good_core cs outs /\ concat (map snd outs) = trows Bm a (b - a).
  Proof.
    intros HC Hb. revert outs. induction HC as [a|a n up cs b HSf HC IH]; intros outs HR; inversion HR as [|a' n' up' cs' ts outs' HT HR']; subst; clear HR.
    - split; [constructor|]. rewrite Nat.sub_diag. reflexivity.
    - assert (n' = n) as -> by (apply (f_equal (@length _)) in H0; unfold brows in H0; rewrite !map_length, !seq_length in H0; exact H0).
      pose proof (cut_le Bm _ _ _ HC) as HL. destruct (IH Hb outs' HR') as [I1 I2]. split.
      + constructor; [|exact I1]. unfold good_core. cbn [fst snd]. destruct HT as [ND HT]. refine (conj _ (conj _ (conj ND (conj _ _)))).
        * unfold trows, brows. rewrite !map_map. reflexivity.
        * intros e row X. unfold trows in X. apply in_map_iff in X as (e' & Q & _). apply (f_equal snd) in Q. cbn [snd] in Q. rewrite <- Q, map_length, seq_length. reflexivity.
        * intros t. rewrite (dget_keys Nat.eqb Nat.eqb_eq). split.
          -- intros (r & G). apply HT in G as (e & j & A1 & A2 & A3 & A4 & _). exists e, j. apply trows_entry. auto.
          -- intros (e & j & G). apply trows_entry in G as (A1 & A2 & ->). 
             destruct (isnew Bm e j) eqn:EN; [exists (rec_at Bm up e j); apply HT; exists e, j; repeat split; auto; lia|].
             destruct (rep_ok N Bm BmS e j ltac:(lia) A2) as (R1 & R2 & R3 & R4 & R5 & R6).
             destruct (Nat.lt_ge_cases (fst (rep Bm e j)) a) as [L|L]; [exists (rec_at Bm up e j); apply HT; exists e, j; repeat split; auto; lia|].
             exists (rec_at Bm up (fst (rep Bm e j)) (snd (rep Bm e j))). apply HT. exists (fst (rep Bm e j)), (snd (rep Bm e j)). repeat split; auto; try lia.
             rewrite (tn_new _ _ _ R3). reflexivity.
        * intros t r G. apply (dget_In Nat.eqb Nat.eqb_eq) in G; [|exact ND]. apply HT in G as (e & j & A1 & A2 & A3 & A4 & A5 & ->).
          exists e, j, (Bm e j). cbn [fst snd]. split; [apply brows_entry; auto|]. split; [apply trows_entry; auto|].
          unfold rec_at. destruct (Bm e j) as [f|bb] eqn:EB; [|cbn; auto]. destruct (BmS e j f ltac:(lia) A2 EB) as [Hf EF]. destruct (isnew Bm e j) eqn:EN; cbn [p1 p2 cp ondb onpb].
          -- split; [reflexivity|]. split; [reflexivity|]. split; [apply on_pb_spec; exact A2|]. left. repeat split. unfold isnew in EN. rewrite EB in EN.
             apply orb_prop in EN as [EN|EN]; [apply Nat.ltb_lt in EN; lia|apply andb_prop in EN as [EN _]; apply Nat.eqb_eq in EN; lia].
          -- split; [reflexivity|]. split; [reflexivity|]. split; [apply on_pb_spec; exact A2|]. right. destruct A5 as [A5|A5]; [discriminate|].
             unfold rep in A5. rewrite EN, EB in A5. cbn in A5. repeat split; [lia|]. rewrite brows_keys. intros X. apply in_seq in X. lia.
      + cbn [map concat snd]. rewrite I2. unfold trows. rewrite <- map_app. f_equal. replace (b - a) with (n + (b - (a + n))) by lia. rewrite seq_app. reflexivity.
  Qed.
  Theorem traces_ok ups : Forall2 selfp ms ups ->
    exists outs G, trace_elements (combine ms ups) = Some (outs, G) /\ Forall2 good_core (combine ms ups) outs /\
      (let T := concat (map snd outs) in
       (forall e j f i t u, entry T e j t -> entry T f i u -> t = u <-> (e = f /\ j = i) \/ (entry (concat ms) e j (El f) /\ i = facing j)) /\
       (forall t, t < G <-> exists e j, entry T e j t)).
  Proof.
    intros HSf. assert (HC : cut Bm 0 (combine ms ups) N) by (apply (cut_intro ms ups 0 N); auto).
    destruct (trace_ok N Bm BmS _ HC) as (outs & E & R). exists outs, (cnt Bm (6 * N)). split; [exact E|].
    destruct (cutres_core 0 _ outs N HC (le_n _) R) as [I1 I2]. split; [exact I1|]. cbn zeta. rewrite I2, Nat.sub_0_r. split.
    - intros e j f i t u X Y. apply trows_entry in X as (X1 & X2 & ->). apply trows_entry in Y as (Y1 & Y2 & ->). rewrite (tn_eq N Bm BmS) by (auto; lia).
      rewrite Bm_entry. split; (intros [H|H]; [left; exact H|right]); [destruct H as [A ->]; repeat split; auto; lia|destruct H as [(_ & _ & A) C]; auto].
    - intros t. split.
      + intros H. apply tn_surj in H as (e & j & A & C & D & _). exists e, j. apply trows_entry. repeat split; auto; lia.
      + intros (e & j & H). apply trows_entry in H as (A & C & ->). apply (tn_range N Bm BmS); auto; lia.
  Qed.
End Ms.
Lemma side_of_index (s : side) : side_of (side_index s) = s.
Proof. apply side_index_inj. apply side_index_of. Qed.
Lemma six_sides j : j < 6 -> exists ax (up : bool), ax < 3 /\ j = 2 * ax + (if up then 1 else 0) /\ facing j = 2 * ax + (if negb up then 1 else 0).
Proof. intros H. destruct j as [|[|[|[|[|[|j]]]]]]; [exists 0, false|exists 0, true|exists 1, false|exists 1, true|exists 2, false|exists 2, true|]; repeat split; lia. Qed.

Section TMesh.
  Context (corner : nat -> nat -> nat) (bnames : list nat) (bsides : list (nat * (nat * nat))) (m : rmap) (g : nat -> list nat -> nat) (lays : list (list nat)) (sc : nat -> scheme).
  Context (bps : list (nat * nat)) (pairs : list ((nat * side) * (nat * side))).
  Context (HB : forall b, In b bnames -> length lays <= b) (HS : forall x, In x bsides -> In (fst x) bnames /\ snd (snd x) < 6).
  Context (E : region_map corner (length lays) bnames bsides = Some m).
  Context (H3 : Forall (fun lay => length lay = 3 /\ Forall (fun n => 1 <= n) lay) lays).
  Context (HL : forall r lay, nth_error lays r = Some lay -> lens_ok (prodl lay) (sc r)).
  Context (HP : boundary_pairs bsides bps = Some pairs).
  Notation num := (fun r => option_map fst (region_numbering g lays sc r)).
  Notation rm := (fun r i => name_of (m r i)).
  Context (ps : list epair) (EPS : concat_some (map (side_pairs num (length lays)) pairs) = Some ps).
  (** an element beside itself is so through a periodic pair *)
  Lemma self_periodic els mm : core_map num lays rm bnames pairs els = Some mm -> selfp mm (useful_pairs mm ps).
  Proof.
    intros EM e j (row & Hin & EN). rewrite core_map_full in EM. destruct (element_map_rows num lays rm bnames pairs els mm EM) as (ps' & EP & R). rewrite EPS in EP. injection EP as <-.
    assert (A : exists row0, fetch num lays rm bnames e = Some row0 /\ row = fold_left (prow e) ps row0).
    { clear - R Hin. induction R as [|e0 er els m9 (E1 & E2) R IH]; [contradiction|]. destruct Hin as [->|Hin]; [cbn in *; subst; exact E2|auto]. }
    assert (LOC : forall s1 s2, In (e, s1, s2, e) ps -> In (e, s1, s2, e) (useful_pairs mm ps)).
    { intros s1 s2 H. apply filter_In. split; [exact H|]. replace (mem e (map fst mm)) with true; [reflexivity|]. symmetry. apply mem_In. apply (in_map fst) in Hin. exact Hin. }
    destruct A as (row0 & F1 & ->). pose proof (HN g lays sc H3 HL) as HNn. pose proof (HR corner bnames bsides m lays HB HS E) as HRr.
    destruct (PAIRS corner bnames bsides m lays bps pairs HB HS E HP) as (P1 & P2 & P3).
    destruct (fetch_row num lays HNn rm bnames e row0 F1) as (r & idx & Le & L6 & RW). destruct (all_pairs_ok num lays HNn H3 pairs P1 P3 ps EPS) as (ND & AP).
    assert (Hj : j < 6) by (rewrite <- L6, <- (prow_length e row0 ps); apply nth_error_Some; congruence).
    destruct (in_keys_dec e j (flat_map keys ps)) as [K|K].
    - apply in_flat_map in K. destruct K as ([[[e1 t1] t2] e2] & Hp & K). destruct (AP _ Hp) as (q1 & s1 & q2 & s2 & x1 & x2 & i1 & i2 & _ & Hs1 & S2 & Ep & _).
      assert (T : t2 = opp t1) by (destruct Ep as [[= <- <- <- <-]|[= <- <- <- <-]]; [auto|]; rewrite S2; destruct t2; unfold opp; cbn; rewrite negb_involutive; reflexivity).
      destruct (prow_key e1 t1 t2 e2 ps row0 ND Hp) as (Q1 & Q2). cbn [keys] in K. destruct K as [[= <- <-]|[[= <- <-]|[]]].
      + rewrite Q1 in EN by (rewrite L6; exact Hj). injection EN as ->. left. rewrite side_of_index, <- side_index_opp, side_of_index, <- T. apply LOC. exact Hp.
      + rewrite Q2 in EN by (rewrite L6; exact Hj). injection EN as ->. right. rewrite side_of_index, <- side_index_opp, side_of_index. replace (opp t2) with t1 by (rewrite T; destruct t1; unfold opp; cbn; rewrite negb_involutive; reflexivity). apply LOC. exact Hp.
    - exfalso. rewrite prow_other in EN by exact K. destruct (six_sides j Hj) as (ax & up & Ha & -> & _). destruct (RW (ax, up) Ha) as (v & V1 & V2). change (side_index (ax, up)) with (2 * ax + (if up then 1 else 0)) in V1. rewrite EN in V1. injection V1 as <-.
      assert (Q := fetch_side_ok num lays HNn H3 rm bnames HRr e r idx (ax, up) _ Le Ha V2). cbn [fst snd] in Q. destruct Q as (r' & idx' & Lf & NX). destruct (located_fun num lays HNn e _ _ _ _ Lf Le) as [-> ->].
      inversion NX as [idx2 L M T|r2 idx2 X At L X2 T]; subst.
      + unfold moved in M. destruct up; lia.
      + destruct At as [At NB]. assert (Hr := proj2 (located_lt num lays HNn e r idx Le)). destruct (map_side corner (length lays) bnames bsides HB HS m E r (2 * ax + (if up then 1 else 0)) Hr ltac:(destruct up; lia)) as (n' & En' & [(C & _)|(C & D & _)]);
          rewrite En' in At; cbn in At; injection At as ->; contradiction.
  Qed.
  Lemma mesh_hyps SIZE rs ms : partition SIZE (sum (map prodl lays)) rs -> Forall2 (fun els mm => core_map num lays rm bnames pairs els = Some mm) rs ms ->
    map fst (concat ms) = seq 0 (sum (map prodl lays)) /\ (forall e row, In (e, row) (concat ms) -> length row = 6) /\
    (forall e j f, entry (concat ms) e j (El f) -> entry (concat ms) f (facing j) (El e)) /\ Forall2 selfp ms (map (fun mm => useful_pairs mm ps) ms).
  Proof.
    intros PA F. destruct (mesh_symmetric corner bnames bsides m g lays sc bps pairs HB HS E H3 HL HP SIZE rs ms PA F) as [K M].
    split; [exact K|]. split; [intros e row H; apply (M e row H)|]. split.
    - intros e j f (row & Hin & EN). destruct (M e row Hin) as [L6 SY]. assert (Hj : j < 6) by (rewrite <- L6; apply nth_error_Some; congruence).
      destruct (six_sides j Hj) as (ax & up & Ha & -> & ->). destruct (SY ax up f Ha EN) as (row' & A & C). exists row'. auto.
    - clear - F HB HS E H3 HL HP EPS. induction F as [|els mm rs ms Q F IH]; cbn; constructor; [|exact IH]. eapply self_periodic. exact Q.
  Qed.
  Theorem mesh_traces SIZE rs ms : partition SIZE (sum (map prodl lays)) rs -> Forall2 (fun els mm => core_map num lays rm bnames pairs els = Some mm) rs ms ->
    exists outs G, trace_elements (map (fun mm => (mm, useful_pairs mm ps)) ms) = Some (outs, G) /\ Forall2 good_core (map (fun mm => (mm, useful_pairs mm ps)) ms) outs /\
      (let T := concat (map snd outs) in
       (forall e j f i t u, entry T e j t -> entry T f i u -> t = u <-> (e = f /\ j = i) \/ (entry (concat ms) e j (El f) /\ i = facing j)) /\
       (forall t, t < G <-> exists e j, entry T e j t)).
  Proof.
    intros PA F. destruct (mesh_hyps SIZE rs ms PA F) as (K & L & M & SF). rewrite <- combine_map. apply (traces_ok (sum (map prodl lays))); assumption.
  Qed.
End TMesh.
Theorem traces_indep N ms ms' ups ups' outs outs' G G' : map fst (concat ms) = seq 0 N -> (forall e row, In (e, row) (concat ms) -> length row = 6) ->
  (forall e j f, entry (concat ms) e j (El f) -> entry (concat ms) f (facing j) (El e)) -> concat ms' = concat ms -> Forall2 selfp ms ups -> Forall2 selfp ms' ups' ->
  trace_elements (combine ms ups) = Some (outs, G) -> trace_elements (combine ms' ups') = Some (outs', G') -> concat (map snd outs) = concat (map snd outs') /\ G = G'.
Proof.
  intros HK H6 HM EC S1 S2.
  assert (X : forall ms0 ups0 outs0 G0, concat ms0 = concat ms -> Forall2 selfp ms0 ups0 -> trace_elements (combine ms0 ups0) = Some (outs0, G0) -> concat (map snd outs0) = trows (Bm ms) 0 N /\ G0 = cnt (Bm ms) (6 * N)).
  { intros ms0 ups0 outs0 G0 E0 SF ET. assert (EB : Bm ms0 = Bm ms) by (unfold Bm; rewrite E0; reflexivity). rewrite <- E0 in HK, H6, HM.
    assert (HC : cut (Bm ms0) 0 (combine ms0 ups0) N) by (apply (cut_intro N ms0 HK H6 ms0 ups0 0 N); auto).
    destruct (trace_ok N (Bm ms0) (BmS N ms0 HK H6 HM) _ HC) as (outs1 & E & R). rewrite ET in E.
    assert (EO := f_equal (fun o => match o with Some x => fst x | None => outs1 end) E). assert (EG := f_equal (fun o => match o with Some x => snd x | None => G end) E). cbn beta iota delta [fst snd] in EO, EG. clear E. subst outs0 G0.
    destruct (cutres_core N ms0 HK H6 HM 0 _ outs1 N HC (le_n _) R) as [_ I2]. rewrite I2, Nat.sub_0_r, EB. auto. }
  intros E1 E2. destruct (X ms ups outs G eq_refl S1 E1) as [A1 A2]. destruct (X ms' ups' outs' G' EC S2 E2) as [A3 A4]. split; congruence.
Qed.
