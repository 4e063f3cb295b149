(** Proofs about TraceModel: the counts of types, and the numbering of hybrid trace forms. *)
From Coq Require Import List Arith Bool Lia Sorted.
From Verif Require Import Prelude PreludeProofs SpaceModel SpaceProofs MeshModel MeshSpec MeshMapSpec MeshProofs MeshMapModel MeshMapProofs MeshMapProofs2 MeshProofs3 MeshMapProofs3 TraceModel TraceSpec TraceProofs TraceProofs2.
Import ListNotations.

Lemma insert_In x y l : In x (insert y l) <-> x = y \/ In x l.
Proof. induction l as [|z l IH]; cbn; [intuition|]. destruct (y <=? z); cbn; [intuition|]. rewrite IH. intuition. Qed.
Lemma sorted_In x l : In x (sorted l) <-> In x l.
Proof. induction l as [|y l IH]; cbn; [reflexivity|]. rewrite insert_In, IH. intuition. Qed.
Lemma insert_sorted x l : StronglySorted lt l -> ~ In x l -> StronglySorted lt (insert x l).
Proof.
  induction 1 as [|y l HS IH HF]; intros NI; cbn; [repeat constructor|]. destruct (Nat.leb_spec x y) as [L|L].
  - assert (x <> y) by (intros ->; apply NI; now left). constructor; [constructor; assumption|]. constructor; [lia|]. rewrite Forall_forall in *. intros z Hz. specialize (HF z Hz). lia.
  - constructor; [apply IH; intros G; apply NI; now right|]. rewrite Forall_forall in *. intros z Hz. apply insert_In in Hz as [->|Hz]; auto.
Qed.
Lemma sorted_sorted l : NoDup l -> StronglySorted lt (sorted l).
Proof. induction 1; cbn; [constructor|]. apply insert_sorted; [assumption|]. rewrite sorted_In. assumption. Qed.

Lemma faces_S (ty : nat -> nat) ax t : faces_before ty ax (S t) = faces_before ty ax t + if ty t =? ax then 1 else 0.
Proof. unfold faces_before. rewrite seq_S, filter_app, app_length. cbn. destruct (ty t =? ax); reflexivity. Qed.
Definition counts (ty : nat -> nat) (t : nat) : nat * nat * nat := (faces_before ty 0 t, faces_before ty 1 t, faces_before ty 2 t).
Lemma counts_S ty t j : j < 6 -> ty t = j / 2 -> bump j (counts ty t) = counts ty (S t).
Proof.
  intros Hj E. unfold counts, bump. rewrite !faces_S, E. assert (D : j / 2 < 3) by (apply Nat.div_lt_upper_bound; lia).
  destruct (j / 2) as [|[|[|x]]]; cbn [Nat.eqb]; rewrite ?Nat.add_0_r; try reflexivity. lia.
Qed.
Lemma counts_total ty t : (forall u, u < t -> ty u < 3) -> total (counts ty t) = t.
Proof.
  intros H. unfold counts, total. induction t as [|t IH]; [reflexivity|]. rewrite !faces_S. specialize (H t ltac:(lia)) as Ht.
  specialize (IH ltac:(intros; apply H; lia)). destruct (ty t) as [|[|[|x]]]; cbn [Nat.eqb]; lia.
Qed.
Lemma cnt_eqb_refl c : cnt_eqb c c = true.
Proof. destruct c as [[a b] d]. unfold cnt_eqb. rewrite !Nat.eqb_refl. reflexivity. Qed.

Section Num.
  Context (N : nat) (B : nat -> nat -> beside).
  Hypothesis HS : forall e j f, e < N -> j < 6 -> B e j = El f -> f < N /\ B f (facing j) = El e.
  Notation cnt := (cnt B). Notation tn := (tn B).
  Notation G := (cnt (6 * N)).
  Context (ty : nat -> nat) (Hty : forall e j, e < N -> j < 6 -> ty (tn e j) = j / 2).
  Lemma ty_lt u : u < G -> ty u < 3.
  Proof. intros H. apply (tn_surj N B) in H as (e & j & He & Hj & <- & _). rewrite Hty by assumption. apply Nat.div_lt_upper_bound; lia. Qed.
  (** a face with a side below a and one from a on *)
  Definition needed (a t : nat) : Prop := exists e j f, e < a /\ e < N /\ j < 6 /\ tn e j = t /\ B e j = El f /\ a <= f.
  Definition good_pool (a : nat) (po : list (nat * (nat * nat * nat))) : Prop :=
    (forall k c, dget Nat.eqb po k = Some c -> c = counts ty k) /\
    (forall t, needed a t -> dget Nat.eqb po t <> None) /\
    (0 < cnt (6 * a) < G -> dget Nat.eqb po (cnt (6 * a)) <> None).
  Section Core.
    Context (a n RANK : nat) (ups : list epair) (ts : list (nat * tel)) (slave : nat -> option nat) (local : nat -> bool).
    Hypothesis Hloc : forall e, local e = true <-> a <= e < a + n.
    Hypothesis Hrange : a + n <= N.
    Hypothesis HT : tels_ok B a n ups (6 * (a + n)) ts.
    Hypothesis HSl1 : forall f, f < a -> exists c, slave f = Some c /\ c < RANK.
    Hypothesis HSl2 : forall f, a + n <= f -> f < N -> exists c, slave f = Some c /\ RANK < c.
    Lemma key_side t : In t (map fst ts) <-> exists e j, a <= e < a + n /\ j < 6 /\ tn e j = t.
    Proof.
      rewrite (dget_keys Nat.eqb Nat.eqb_eq). destruct HT as [_ HT']. split.
      - intros (r & X). apply HT' in X as (e & j & A1 & A2 & A3 & A4 & _). exists e, j. auto.
      - intros (e & j & A1 & A2 & <-).
        destruct (isnew B e j) eqn:EN; [exists (rec_at B ups e j); apply HT'; exists e, j; repeat split; auto; lia|].
        destruct (rep_ok N B HS e j ltac:(lia) A2) as (R1 & R2 & R3 & R4 & R5 & R6).
        destruct (Nat.lt_ge_cases (fst (rep B e j)) a) as [L|L]; [exists (rec_at B ups e j); apply HT'; exists e, j; repeat split; auto; lia|].
        exists (rec_at B ups (fst (rep B e j)) (snd (rep B e j))). apply HT'. exists (fst (rep B e j)), (snd (rep B e j)). repeat split; auto; try lia. rewrite (tn_new _ _ _ R3). reflexivity.
    Qed.
    Lemma new_key t : cnt (6 * a) <= t -> t < cnt (6 * (a + n)) -> In t (map fst ts).
    Proof.
      intros L1 L2. apply cnt_surj in L2 as (q & Q1 & Q2 & Q3). apply key_side.
      assert (6 * a <= q). { destruct (Nat.lt_ge_cases q (6 * a)) as [X|X]; [|exact X]. apply (cnt_lt B) in X; [lia|exact Q2]. }
      exists (q / 6), (q mod 6). assert (q mod 6 < 6) by (apply Nat.mod_upper_bound; lia). assert (q / 6 < a + n) by (apply Nat.div_lt_upper_bound; lia). assert (a <= q / 6) by (apply Nat.div_le_lower_bound; lia).
      split; [lia|]. split; [assumption|]. rewrite tn_new by exact Q2. rewrite <- Nat.div_mod_eq. exact Q3.
    Qed.
    Lemma key_lt t : In t (map fst ts) -> t < cnt (6 * (a + n)).
    Proof.
      intros H. apply key_side in H as (e & j & He & Hj & <-). destruct (rep_ok N B HS e j ltac:(lia) Hj) as (R1 & R2 & R3 & R4 & R5 & _). unfold tn. cbn zeta.
      apply cnt_lt; [rewrite new_code; assumption|lia].
    Qed.
    (** shared_with of a trace element of the core *)
    Lemma shared_ok t r : dget Nat.eqb ts t = Some r -> exists x, shared_with local slave RANK r = Some x /\
      snd (cp r) < 6 /\ ty t = snd (cp r) / 2 /\ (needed (a + n) t -> exists c, x = Some c /\ RANK < c).
    Proof.
      intros H. destruct HT as [_ HT']. apply HT' in H as (e & j & He & Hj & _ & <- & C & ->).
      assert (Le : local e = true) by (apply Hloc; exact He).
      assert (CP : cp (rec_at B ups e j) = (e, j)) by (unfold rec_at; destruct (B e j); [destruct (isnew B e j)|]; reflexivity).
      rewrite CP. cbn [snd]. rewrite Hty by (auto; lia).
      assert (NE : needed (a + n) (tn e j) -> exists f, B e j = El f /\ a + n <= f).
      { intros (e' & j' & f & A1 & A2 & A3 & A4 & A5 & A6). apply (tn_eq N B HS) in A4 as [[-> ->]|[A4 A7]]; auto; try lia; [eauto|]. rewrite A5 in A4. injection A4 as ->. lia. }
      destruct (B e j) as [f|b] eqn:EB.
      - destruct (HS e j f ltac:(lia) Hj EB) as [Hf EF].
        assert (X : shared_with local slave RANK (rec_at B ups e j) = if local f then Some None else match slave f with Some c => if c =? RANK then None else Some (Some c) | None => None end).
        { unfold rec_at. rewrite EB. destruct (isnew B e j); unfold shared_with; cbn [ondb p1 p2]; rewrite Le; destruct (local f); reflexivity. }
        rewrite X. destruct (local f) eqn:Lf.
        + exists None. repeat split; auto. intros W. apply NE in W as (f' & [= <-] & W). apply Hloc in Lf. lia.
        + destruct (Nat.lt_ge_cases f a) as [L|L].
          * destruct (HSl1 f L) as (c & -> & Lc). rewrite (proj2 (Nat.eqb_neq c RANK)) by lia. exists (Some c). repeat split; auto. intros W. apply NE in W as (f' & [= <-] & W). lia.
          * assert (a + n <= f). { destruct (Nat.lt_ge_cases f (a + n)); [|assumption]. rewrite (proj2 (Hloc f)) in Lf by lia. discriminate. }
            destruct (HSl2 f H Hf) as (c & -> & Lc). rewrite (proj2 (Nat.eqb_neq c RANK)) by lia. exists (Some c). repeat split; auto. intros _. eauto.
      - exists None. split; [unfold rec_at; rewrite EB; reflexivity|]. repeat split; auto. intros W. apply NE in W as (f' & [=] & _).
    Qed.
    (** the invariant with [done] processed and [rest] to go *)
    Definition loop (done rest : list nat) (po : list (nat * (nat * nat * nat))) : Prop :=
      (forall k c, dget Nat.eqb po k = Some c -> c = counts ty k) /\
      (forall t, t < cnt (6 * a) \/ In t done -> needed (a + n) t -> dget Nat.eqb po t <> None) /\
      (forall t, In t rest -> t < cnt (6 * a) -> dget Nat.eqb po t <> None) /\
      (forall m, cnt (6 * a) <= m -> 0 < m < G -> ~ In m done -> m = cnt (6 * a) \/ In (m - 1) done -> dget Nat.eqb po m <> None).
    Lemma count_step done i rest po ta : (forall x, In x (done ++ i :: rest) <-> In x (map fst ts)) -> StronglySorted lt (done ++ i :: rest) -> loop done (i :: rest) po ->
      exists po', count_one local slave RANK G ts (Some (po, ta)) i = Some (po', ta ++ [(i, counts ty i)]) /\ loop (done ++ [i]) rest po'.
    Proof.
      intros HK SS (IA & IB & IC & ID). unfold count_one.
      assert (Hi : In i (map fst ts)) by (apply HK; apply in_or_app; right; now left).
      apply (dget_keys Nat.eqb Nat.eqb_eq) in Hi as Hr. destruct Hr as (r & Er). rewrite Er. destruct (shared_ok i r Er) as (x & Ex & J6 & Tj & Nx). rewrite Ex.
      assert (Li : i < G). { apply key_lt in Hi. pose proof (cnt_le B (6 * (a + n)) (6 * N) ltac:(lia)). lia. }
      assert (ORD : (forall y, In y done -> y < i) /\ (forall y, In y rest -> i < y)).
      { clear - SS. induction done as [|d done IH]; cbn in SS.
        - split; [contradiction|]. inversion SS; subst. rewrite Forall_forall in H2. exact H2.
        - inversion SS as [|? ? S1 S2]; subst. destruct (IH S1) as [I1 I2]. split; [|exact I2]. intros y [->|Hy]; [|auto]. rewrite Forall_forall in S2. apply S2. apply in_or_app. right. now left. }
      destruct ORD as [OD OR].
      set (po1 := if i =? 0 then dset Nat.eqb po 0 (0, 0, 0) else po).
      assert (IA1 : forall k c, dget Nat.eqb po1 k = Some c -> c = counts ty k).
      { intros k c. unfold po1. destruct (i =? 0); [|apply IA]. rewrite dget_dset by apply Nat.eqb_eq. destruct (Nat.eqb_spec 0 k) as [<-|]; [intros [= <-]; reflexivity|apply IA]. }
      assert (MO : forall k, dget Nat.eqb po k <> None -> dget Nat.eqb po1 k <> None).
      { intros k Hk. unfold po1. destruct (i =? 0); [|exact Hk]. rewrite dget_dset by apply Nat.eqb_eq. destruct (0 =? k); [discriminate|exact Hk]. }
      assert (PR : dget Nat.eqb po1 i <> None).
      { destruct (Nat.eq_dec i 0) as [->|N0]; [unfold po1; cbn; discriminate|]. apply MO. destruct (Nat.lt_ge_cases i (cnt (6 * a))) as [L|L]; [apply IC; [now left|exact L]|].
        apply ID; [exact L|lia|intros X; apply OD in X; lia|]. destruct (Nat.eq_dec i (cnt (6 * a))) as [->|NE]; [now left|]. right.
        assert (X : In (i - 1) (map fst ts)) by (apply new_key; [lia|]; apply key_lt in Hi; lia). apply HK in X. apply in_app_or in X as [X|X]; [exact X|]. exfalso. destruct X as [X|X]; [lia|]. apply OR in X. lia. }
      destruct (dget Nat.eqb po1 i) as [c|] eqn:Ec; [|congruence]. pose proof (IA1 _ _ Ec) as ->. rewrite (counts_S ty i (snd (cp r)) J6 Tj).
      (* the entry i + 1 *)
      assert (exists po2, (match dget Nat.eqb po1 (i + 1) with
                           | Some c'' => if cnt_eqb (counts ty (S i)) c'' then Some po1 else None
                           | None => if i + 1 =? G then if total (counts ty (S i)) =? G then Some po1 else None else Some (dset Nat.eqb po1 (i + 1) (counts ty (S i)))
                           end) = Some po2 /\ (forall k c, dget Nat.eqb po2 k = Some c -> c = counts ty k) /\ (forall k, dget Nat.eqb po1 k <> None -> dget Nat.eqb po2 k <> None) /\ (i + 1 < G -> dget Nat.eqb po2 (i + 1) <> None)) as (po2 & E2 & A2 & M2 & N2).
      { destruct (dget Nat.eqb po1 (i + 1)) as [c2|] eqn:E1.
        - pose proof (IA1 _ _ E1) as ->. replace (i + 1) with (S i) in * by lia. rewrite cnt_eqb_refl. exists po1. repeat split; auto. congruence.
        - destruct (Nat.eqb_spec (i + 1) G) as [EG|NG].
          + rewrite counts_total by (intros u Hu; apply ty_lt; lia). rewrite (proj2 (Nat.eqb_eq (S i) G)) by lia. exists po1. repeat split; auto. lia.
          + eexists. split; [reflexivity|]. split; [|split].
            * intros k c. rewrite dget_dset by apply Nat.eqb_eq. destruct (Nat.eqb_spec (i + 1) k) as [<-|]; [intros [= <-]; f_equal; lia|apply IA1].
            * intros k Hk. rewrite dget_dset by apply Nat.eqb_eq. destruct (i + 1 =? k); [discriminate|exact Hk].
            * intros _. rewrite dget_dset by apply Nat.eqb_eq. rewrite Nat.eqb_refl. discriminate. }
      rewrite E2.
      (* dropping entry i *)
      assert (DROP : forall (po3 : list (nat * (nat * nat * nat))), (forall k, k <> i -> dget Nat.eqb po3 k = dget Nat.eqb po2 k) -> (forall c, dget Nat.eqb po3 i = Some c -> c = counts ty i) -> (needed (a + n) i -> dget Nat.eqb po3 i <> None) -> loop (done ++ [i]) rest po3).
      { intros po3 X1 X2 X3. split; [|split; [|split]].
        - intros k c Hk. destruct (Nat.eq_dec k i) as [->|NE]; [apply X2; exact Hk|]. rewrite X1 in Hk by exact NE. apply A2. exact Hk.
        - intros t Ht Wt. destruct (Nat.eq_dec t i) as [->|NE]; [apply X3; exact Wt|]. rewrite X1 by exact NE. apply M2, MO. apply IB; [|exact Wt].
          destruct Ht as [Ht|Ht]; [now left|]. apply in_app_or in Ht as [Ht|[Ht|[]]]; [now right|congruence].
        - intros t Ht Lt. rewrite X1 by (intros ->; apply OR in Ht; lia). apply M2, MO. apply IC; [now right|exact Lt].
        - intros m Lm Gm Dm Cm. rewrite X1 by (intros ->; apply Dm; apply in_or_app; right; now left). destruct (Nat.eq_dec m (i + 1)) as [->|NE]; [apply N2; lia|].
          apply M2, MO. apply ID; auto; [intros X; apply Dm; apply in_or_app; now left|]. destruct Cm as [Cm|Cm]; [now left|]. right. apply in_app_or in Cm as [Cm|[Cm|[]]]; [exact Cm|lia]. }
      assert (DEL : (needed (a + n) i -> False) -> loop (done ++ [i]) rest (ddel Nat.eqb po2 i)).
      { intros W. apply DROP.
        - intros k NE. rewrite dget_ddel by apply Nat.eqb_eq. rewrite (proj2 (Nat.eqb_neq i k)) by congruence. reflexivity.
        - intros c. rewrite dget_ddel by apply Nat.eqb_eq. rewrite Nat.eqb_refl. discriminate.
        - intros W'. contradiction. }
      destruct x as [core|].
      - destruct (Nat.ltb_spec core RANK) as [L|L]; (eexists; split; [reflexivity|]).
        + apply DEL. intros W. apply Nx in W as (c & [= <-] & Lc). lia.
        + apply DROP; auto. intros _. apply M2. congruence.
      - eexists; split; [reflexivity|]. apply DEL. intros W. apply Nx in W as (c & [=] & _).
    Qed.
    Lemma count_loop : forall rest done po ta, (forall x, In x (done ++ rest) <-> In x (map fst ts)) -> StronglySorted lt (done ++ rest) -> loop done rest po ->
      exists po', fold_left (count_one local slave RANK G ts) rest (Some (po, ta)) = Some (po', ta ++ map (fun i => (i, counts ty i)) rest) /\ loop (done ++ rest) [] po'.
    Proof.
      induction rest as [|i rest IH]; intros done po ta HK SS HL.
      - exists po. cbn. rewrite !app_nil_r. auto.
      - cbn [fold_left map]. destruct (count_step done i rest po ta HK SS HL) as (po1 & E1 & L1). rewrite E1.
        replace (done ++ i :: rest) with ((done ++ [i]) ++ rest) in * by (rewrite <- app_assoc; reflexivity).
        destruct (IH (done ++ [i]) po1 (ta ++ [(i, counts ty i)]) HK SS L1) as (po2 & E2 & L2). exists po2. rewrite E2, <- app_assoc. auto.
    Qed.
    Lemma count_core_ok po : good_pool a po -> exists po', fold_left (count_one local slave RANK G ts) (sorted (map fst ts)) (Some (po, [])) = Some (po', map (fun i => (i, counts ty i)) (sorted (map fst ts))) /\ good_pool (a + n) po'.
    Proof.
      intros (GA & GB & GC). assert (ND : NoDup (map fst ts)) by apply HT.
      destruct (count_loop (sorted (map fst ts)) [] po []) as (po' & E & (LA & LB & LC & LD)).
      - intros x. cbn. apply sorted_In.
      - cbn. apply sorted_sorted. exact ND.
      - split; [exact GA|]. split; [|split].
        + intros t [Ht|[]] (e & j & f & A1 & A2 & A3 & A4 & A5 & A6). apply GB. destruct (Nat.lt_ge_cases e a) as [L|L]; [exists e, j, f; repeat split; auto; lia|]. exfalso.
          assert (NEW : isnew B e j = true) by (unfold isnew; rewrite A5; apply orb_true_intro; left; apply Nat.ltb_lt; lia). rewrite (tn_new B e j NEW) in A4.
          pose proof (cnt_le B (6 * a) (6 * e + j) ltac:(lia)). lia.
        + intros t Ht Lt. apply GB. apply (proj1 (sorted_In _ (map fst ts))) in Ht. apply key_side in Ht as (e & j & He & Hj & <-).
          destruct (rep_ok N B HS e j ltac:(lia) Hj) as (R1 & R2 & R3 & R4 & R5 & R6). destruct (Nat.lt_ge_cases (fst (rep B e j)) a) as [L|L].
          * destruct R4 as [R4|(f & R4 & R7)]; [rewrite R4 in L; cbn in L; lia|]. rewrite R7 in *. cbn [fst snd] in *. destruct (HS e j f ltac:(lia) Hj R4) as [_ R8].
            exists f, (facing j), e. repeat split; auto; try lia. symmetry. apply (tn_eq N B HS); auto; lia.
          * exfalso. unfold TraceProofs.tn in Lt. cbn zeta in Lt. pose proof (cnt_le B (6 * a) (6 * fst (rep B e j) + snd (rep B e j)) ltac:(lia)). lia.
        + intros m Lm Gm _ [->|[]]. apply GC. lia.
      - exists po'. split; [exact E|]. cbn [app] in *. split; [exact LA|]. split.
        + intros t Wt. apply LB; [|exact Wt]. destruct (Nat.lt_ge_cases t (cnt (6 * a))) as [L|L]; [now left|]. right. apply sorted_In. apply new_key; [exact L|].
          destruct Wt as (e & j & f & A1 & A2 & A3 & A4 & A5 & A6). destruct (rep_ok N B HS e j A2 A3) as (R1 & R2 & R3 & _ & R5 & _). rewrite <- A4. unfold TraceProofs.tn. cbn zeta. apply cnt_lt; [rewrite new_code; assumption|lia].
        + intros L. pose proof (cnt_le B (6 * a) (6 * (a + n)) ltac:(lia)). apply LD; auto.
          * intros X. apply (sorted_In _ (map fst ts)), key_lt in X. lia.
          * destruct (Nat.eq_dec (cnt (6 * (a + n))) (cnt (6 * a))) as [X|X]; [now left|]. right. apply sorted_In. apply new_key; lia.
    Qed.
  End Core.
  Lemma count_cores slave : forall cs outs a RANK po out, cut B a cs N -> cutres B a cs outs ->
    (forall f, f < a -> exists c, slave f = Some c /\ c < RANK) -> (forall c mu e, nth_error cs c = Some mu -> In e (map fst (fst mu)) -> slave e = Some (RANK + c)) -> good_pool a po ->
    exists po' tas, fold_left (count_core slave G) (combine (map fst cs) (map fst outs)) (Some (RANK, po, out)) = Some (RANK + length cs, po', out ++ tas) /\
      Forall2 (fun o ta => ta = map (fun i => (i, counts ty i)) (sorted (map fst (fst o)))) outs tas.
  Proof.
    induction cs as [|[m up] cs IH]; intros outs a RANK po out HC HR S1 S2 HP; inversion HR as [|a' n' up' cs' ts outs' HT HR']; subst.
    - exists po, []. cbn. rewrite Nat.add_0_r, app_nil_r. auto.
    - inversion HC as [|a' n2 up' cs' b HSf HC' E1 E2]; subst. rename n' into n.
      assert (n2 = n) as -> by (apply (f_equal (@length _)) in E2; unfold brows in E2; rewrite !map_length, !seq_length in E2; congruence).
      pose proof (cut_le B _ _ _ HC') as HL. cbn [map combine fst fold_left]. unfold count_core at 2. cbn [fst snd]. rewrite brows_keys.
      assert (SL2 : forall f, a + n <= f -> f < N -> exists c, slave f = Some c /\ RANK < c).
      { intros f H1 H2. assert (X : exists c mu, nth_error cs c = Some mu /\ In f (map fst (fst mu))).
        { clear - HC' H1 H2. revert HC' H1. generalize (a + n). clear a n. intros k. revert k. induction cs as [|[m' up'] cs IH]; intros k HC H1; inversion HC; subst; [lia|].
          destruct (Nat.lt_ge_cases f (k + n)) as [L|L]; [exists 0; eexists; split; [reflexivity|]; cbn [fst]; rewrite brows_keys; apply in_seq; lia|].
          destruct (IH (k + n)) as (c & mu & A & D); auto. exists (S c), mu. auto. }
        destruct X as (c & mu & A & D). exists (RANK + S c). split; [apply (S2 (S c) mu f); auto|lia]. }
      destruct (count_core_ok a n RANK up ts slave (fun e => mem e (seq a n)) (fun e => mem_seq e a n) HL HT S1 SL2 po HP) as (po1 & E & GP). rewrite E.
      destruct (IH outs' (a + n) (S RANK) po1 (out ++ [map (fun i => (i, counts ty i)) (sorted (map fst ts))]) HC' HR') as (po2 & tas & E' & F'); auto.
      { intros f Hf. destruct (Nat.lt_ge_cases f a) as [L|L]; [destruct (S1 f L) as (c & A & D); exists c; split; [exact A|lia]|]. exists RANK. split; [|lia].
        rewrite (S2 0 (brows B a n, up) f eq_refl); [f_equal; lia|]. cbn [fst]. rewrite brows_keys. apply in_seq. lia. }
      { intros c mu e A D. rewrite (S2 (S c) mu e A D). f_equal. lia. }
      exists po2, (map (fun i => (i, counts ty i)) (sorted (map fst ts)) :: tas). split; [|constructor; auto]. rewrite E'. cbn [length]. rewrite <- app_assoc. cbn [app]. do 2 f_equal. f_equal. lia.
  Qed.
End Num.

Lemma all_some_fun {A C} (f : A -> option C) (g : A -> C) l : (forall a, In a l -> f a = Some (g a)) -> all_some (map f l) = Some (map g l).
Proof. intros H. apply all_some_intro. induction l as [|x l IH]; cbn; constructor; [apply H; now left|]. apply IH. intros a Ha. apply H. now right. Qed.
Lemma start_counts nbo ty t : (forall u, u < t -> ty u < 3) -> start_num nbo (counts ty t) = sum (map (fun u => nbo (ty u)) (seq 0 t)).
Proof.
  intros H. unfold start_num, counts. induction t as [|t IH]; [reflexivity|]. rewrite !faces_S, seq_S, map_app, sum_app. cbn [map sum]. rewrite <- IH by (intros; apply H; lia).
  specialize (H t ltac:(lia)). cbn [Nat.add]. unfold sum. cbn [fold_right]. destruct (ty t) as [|[|[|x]]]; cbn [Nat.eqb]; try lia; rewrite !Nat.mul_add_distr_r; lia.
Qed.
Lemma sum_map_le (f : nat -> nat) a b : a <= b -> sum (map f (seq 0 a)) <= sum (map f (seq 0 b)).
Proof. intros H. replace b with (a + (b - a)) by lia. rewrite seq_app, map_app, sum_app. lia. Qed.
Lemma sum_map_S (f : nat -> nat) a : sum (map f (seq 0 (S a))) = sum (map f (seq 0 a)) + f a.
Proof. rewrite seq_S, map_app, sum_app. cbn. lia. Qed.
Lemma sum_map_find (f : nat -> nat) n d : d < sum (map f (seq 0 n)) -> exists t i, t < n /\ i < f t /\ d = sum (map f (seq 0 t)) + i.
Proof.
  induction n as [|n IH]; [cbn; lia|]. rewrite sum_map_S. intros H. destruct (Nat.lt_ge_cases d (sum (map f (seq 0 n)))) as [L|L].
  - destruct (IH L) as (t & i & A & C & D). exists t, i. auto.
  - exists n, (d - sum (map f (seq 0 n))). lia.
Qed.
Lemma sum_map_inj (f : nat -> nat) t i u k : i < f t -> k < f u -> sum (map f (seq 0 t)) + i = sum (map f (seq 0 u)) + k -> t = u /\ i = k.
Proof.
  intros H1 H2 E. destruct (Nat.lt_trichotomy t u) as [L|[->|L]]; [exfalso|lia|exfalso].
  - pose proof (sum_map_le f (S t) u L). rewrite sum_map_S in H. lia.
  - pose proof (sum_map_le f (S u) t L). rewrite sum_map_S in H. lia.
Qed.
Lemma nth_error_flat {A} (g : nat -> list A) (l : nat -> nat) : (forall k, length (g k) = l k) -> forall n j i, j < n -> i < l j ->
  nth_error (concat (map g (seq 0 n))) (sum (map l (seq 0 j)) + i) = nth_error (g j) i.
Proof.
  intros HL n. induction n as [|n IH]; intros j i Hj Hi; [lia|]. rewrite seq_S, map_app, concat_app. cbn [map concat]. rewrite app_nil_r.
  assert (LC : forall m, length (concat (map g (seq 0 m))) = sum (map l (seq 0 m))).
  { induction m; [reflexivity|]. rewrite sum_map_S, seq_S, map_app, concat_app, app_length, IHm. cbn [map concat]. rewrite app_nil_r, HL. reflexivity. }
  destruct (Nat.eq_dec j n) as [->|NE].
  - rewrite nth_error_app2 by (rewrite LC; lia). rewrite LC. f_equal. cbn. lia.
  - rewrite nth_error_app1; [apply IH; lia|]. rewrite LC. pose proof (sum_map_le l (S j) n ltac:(lia)). rewrite sum_map_S in H. lia.
Qed.
Lemma nth_error_seq_lt a n i : i < n -> nth_error (seq a n) i = Some (a + i).
Proof. intros H. rewrite nth_error_nth' with (d := 0) by (rewrite seq_length; exact H). rewrite seq_nth by exact H. reflexivity. Qed.

Lemma dget_pairs {V} (g : nat -> V) l t : dget Nat.eqb (map (fun i => (i, g i)) l) t = if mem t l then Some (g t) else None.
Proof.
  unfold dget. induction l as [|x l IH]; [reflexivity|]. cbn [map lookup mem existsb fst snd]. destruct (Nat.eqb_spec t x) as [->|NE]; cbn [orb].
  - reflexivity.
  - exact IH.
Qed.

Section Ms.
  Context (N : nat) (ms : list emap).
  Hypothesis HK : map fst (concat ms) = seq 0 N.
  Hypothesis H6 : forall e row, In (e, row) (concat ms) -> length row = 6.
  Hypothesis HM : forall e j f, entry (concat ms) e j (El f) -> entry (concat ms) f (facing j) (El e).
  Context (ups : list (list epair)) (HSf : Forall2 selfp ms ups).
  Notation B := (Bm ms).
  Let HSB := BmS N ms HK H6 HM.
  (** the axis of every trace element *)
  Definition axis_of (t : nat) : nat :=
    match find (fun q => new_at B q && (cnt B q =? t)) (seq 0 (6 * N)) with Some q => (q mod 6) / 2 | None => 0 end.
  Lemma axis_of_tn e j : e < N -> j < 6 -> axis_of (tn B e j) = j / 2.
  Proof.
    intros He Hj. unfold axis_of. destruct (rep_ok N B HSB e j He Hj) as (R1 & R2 & R3 & R4 & R5 & _).
    destruct (find _ _) as [q|] eqn:F.
    - apply find_some in F as [F1 F2]. apply andb_prop in F2 as [F2 F3]. apply Nat.eqb_eq in F3.
      assert (Q : q = 6 * fst (rep B e j) + snd (rep B e j)).
      { unfold tn in F3. cbn zeta in F3. destruct (Nat.lt_trichotomy q (6 * fst (rep B e j) + snd (rep B e j))) as [L|[L|L]]; [|exact L|].
        - apply (cnt_lt B) in L; [lia|exact F2].
        - apply (cnt_lt B) in L; [lia|]. rewrite new_code; assumption. }
      rewrite Q. replace ((6 * fst (rep B e j) + snd (rep B e j)) mod 6) with (snd (rep B e j)).
      + destruct R4 as [R4|(f & _ & R4)]; rewrite R4; cbn [snd]; [reflexivity|]. destruct (six_sides j Hj) as (ax & up & _ & -> & ->). rewrite !(Nat.mul_comm 2 ax), !Nat.div_add_l by lia. destruct up; reflexivity.
      + rewrite (Nat.mul_comm 6), Nat.add_comm, Nat.mod_add by lia. symmetry. apply Nat.mod_small. exact R2.
    - exfalso. assert (X := find_none _ _ F (6 * fst (rep B e j) + snd (rep B e j))). cbn beta in X. rewrite new_code, R3 in X by exact R2. unfold tn in X. cbn zeta in X. rewrite Nat.eqb_refl in X. apply Bool.diff_true_false. apply X. apply in_seq. lia.
  Qed.
  Lemma ms_cut : cut B 0 (combine ms ups) N.
  Proof. apply (cut_intro N ms HK H6 ms ups 0 N); auto. Qed.
  Theorem types_ok slave outs G : (forall c mm e, nth_error ms c = Some mm -> In e (map fst mm) -> slave e = Some c) -> trace_elements (combine ms ups) = Some (outs, G) ->
    exists axis tas, type_amounts slave G (combine ms (map fst outs)) = Some tas /\
      (forall e j t, entry (concat (map snd outs)) e j t -> axis t = j / 2) /\
      Forall2 (fun o ta => NoDup (map fst ta) /\ forall t c, In (t, c) ta <-> In t (map fst (fst o)) /\ c = (faces_before axis 0 t, faces_before axis 1 t, faces_before axis 2 t)) outs tas.
  Proof.
    intros HSl ET. destruct (trace_ok N B HSB _ ms_cut) as (outs' & E & R). rewrite ET in E. assert (EO := f_equal (fun o => match o with Some x => fst x | None => outs end) E). assert (EG := f_equal (fun o => match o with Some x => snd x | None => G end) E). cbn beta iota delta [fst snd] in EO, EG. clear E. subst outs' G.
    destruct (cutres_core N ms HK H6 HM 0 _ outs N ms_cut (le_n _) R) as [I1 I2]. exists axis_of.
    assert (LU : length ms = length ups) by exact (F2_length _ _ _ HSf).
    assert (MF : map fst (combine ms ups) = ms) by (clear - LU; revert ups LU; induction ms as [|m l IH]; intros [|u ups] LU; try discriminate; [reflexivity|]; cbn; f_equal; apply IH; cbn in LU; lia).
    destruct (count_cores N B HSB axis_of axis_of_tn slave (combine ms ups) outs 0 0 [] []) as (po & tas & E & F).
    - exact ms_cut.
    - exact R.
    - lia.
    - intros c mu e A D. cbn. apply (HSl c (fst mu) e); [|exact D]. rewrite <- MF. rewrite nth_error_map, A. reflexivity.
    - split; [discriminate|]. split; [intros t (e & j & f & A & _); lia|]. rewrite Nat.mul_0_r. cbn. lia.
    - exists tas. unfold type_amounts. rewrite MF in E. rewrite E. split; [reflexivity|]. split.
      + intros e j t X. rewrite I2 in X. apply trows_entry in X as (A1 & A2 & ->). apply axis_of_tn; [lia|exact A2].
      + clear - F I1. revert I1. generalize (combine ms ups). induction F as [|o ta outs tas E F IH]; intros cs I1; inversion I1 as [|x mu cs' y G1 G2]; subst; constructor; [|eapply IH; eassumption].
        destruct G1 as (_ & _ & ND & _). assert (SF : map fst (map (fun i => (i, counts axis_of i)) (sorted (map fst (fst o)))) = sorted (map fst (fst o))) by (rewrite map_map; cbn; apply map_id).
        split.
        * rewrite SF. apply sorted_sorted in ND. clear - ND. induction ND as [|z l Q1 Q2 Q3]; constructor; [|assumption]. rewrite Forall_forall in Q3. intros X. apply Q3 in X. lia.
        * intros t c. rewrite in_map_iff. split.
          -- intros (i & Q & X). apply (sorted_In i (map fst (fst o))) in X. pose proof (f_equal fst Q) as Q1. pose proof (f_equal snd Q) as Q2. cbn [fst snd] in Q1, Q2. subst i c. auto.
          -- intros [X ->]. exists t. split; [reflexivity|]. apply sorted_In. exact X.
  Qed.
  (** ** the numbering of hybrid trace forms *)
  Definition goff (nbo : nat -> nat) (t : nat) : nat := sum (map (fun u => nbo (axis_of u)) (seq 0 t)).
  Lemma core_dofs nbo a n up ts rows ta : a + n <= N -> tels_ok B a n up (6 * (a + n)) ts -> rows = trows B a n -> ta = map (fun i => (i, counts axis_of i)) (sorted (map fst ts)) ->
    exists tew, gm_tew nbo ts ta = Some tew /\
      gm_trace tew rows = Some (map (fun e => (e, concat (map (fun j => seq (goff nbo (tn B e j)) (nbo (j / 2))) (seq 0 6)))) (seq a n)).
  Proof.
    intros HL HT -> ->. exists (map (fun it => (fst it, seq (goff nbo (fst it)) (nbo (axis_of (fst it))))) ts).
    assert (LT : forall t, In t (map fst ts) -> t < cnt B (6 * N)). { intros t X. apply (key_lt N B HSB a n up ts HL HT) in X. pose proof (cnt_le B (6 * (a + n)) (6 * N) ltac:(lia)). lia. }
    split.
    - unfold gm_tew. apply all_some_fun. intros [t r] X. cbn [fst snd]. apply (in_map fst) in X as X'. cbn [fst] in X'. rewrite dget_pairs. rewrite (proj2 (mem_In t (sorted (map fst ts)))) by (apply sorted_In; exact X').
      do 2 f_equal. f_equal.
      + apply start_counts. intros u Hu. apply (ty_lt N B axis_of axis_of_tn). apply LT in X'. lia.
      + f_equal. destruct HT as [ND HT]. apply (dget_In Nat.eqb Nat.eqb_eq) in X; [|exact ND]. apply HT in X as (e & j & A1 & A2 & A3 & <- & _ & ->). rewrite axis_of_tn by lia.
        unfold rec_at. destruct (B e j); [destruct (isnew B e j)|]; reflexivity.
    - unfold gm_trace, trows. rewrite map_map. cbn [fst snd].
      assert (G : forall e, In e (seq a n) -> option_map (fun ls : list (list nat) => (e, concat ls)) (all_some (map (dget Nat.eqb (map (fun it : nat * tel => (fst it, seq (goff nbo (fst it)) (nbo (axis_of (fst it))))) ts)) (map (tn B e) (seq 0 6)))) =
        Some (e, concat (map (fun j => seq (goff nbo (tn B e j)) (nbo (j / 2))) (seq 0 6)))).
      { intros e He. apply in_seq in He. rewrite map_map. rewrite (all_some_fun _ (fun j => seq (goff nbo (tn B e j)) (nbo (j / 2)))); [reflexivity|]. intros j Hj. apply in_seq in Hj.
        rewrite <- (map_map fst (fun i => (i, seq (goff nbo i) (nbo (axis_of i))))). rewrite (dget_pairs (fun i => seq (goff nbo i) (nbo (axis_of i)))). rewrite (proj2 (mem_In (tn B e j) (map fst ts))); [|apply (key_side N B HSB a n up ts HL HT); exists e, j; repeat split; lia].
        rewrite axis_of_tn by lia. reflexivity. }
      apply all_some_fun. exact G.
  Qed.
  Theorem dofs_ok slave outs G nbo : (forall c mm e, nth_error ms c = Some mm -> In e (map fst mm) -> slave e = Some c) -> trace_elements (combine ms ups) = Some (outs, G) ->
    exists tas gms, type_amounts slave G (combine ms (map fst outs)) = Some tas /\
      Forall2 (fun ot gm => exists tew, gm_tew nbo (fst (fst ot)) (snd ot) = Some tew /\ gm_trace tew (snd (fst ot)) = Some gm) (combine outs tas) gms /\
      map (map fst) gms = map (map fst) ms /\ (forall e v, In (e, v) (concat gms) -> length v = sum (map (fun k => nbo (k / 2)) (seq 0 6))) /\
      (forall e j i d f k l d', side_dof nbo (concat gms) e j i d -> side_dof nbo (concat gms) f k l d' -> d = d' <-> i = l /\ exists t, entry (concat (map snd outs)) e j t /\ entry (concat (map snd outs)) f k t) /\
      (exists total, forall d, d < total <-> exists e j i, side_dof nbo (concat gms) e j i d).
  Proof.
    intros HSl ET. destruct (trace_ok N B HSB _ ms_cut) as (outs' & E & R). rewrite ET in E. assert (EO := f_equal (fun o => match o with Some x => fst x | None => outs end) E). assert (EG := f_equal (fun o => match o with Some x => snd x | None => G end) E). cbn beta iota delta [fst snd] in EO, EG. clear E. subst outs' G.
    destruct (cutres_core N ms HK H6 HM 0 _ outs N ms_cut (le_n _) R) as [I1 I2].
    assert (LU : length ms = length ups) by exact (F2_length _ _ _ HSf).
    assert (MF : map fst (combine ms ups) = ms) by (clear - LU; revert ups LU; induction ms as [|m l IH]; intros [|u ups] LU; try discriminate; [reflexivity|]; cbn; f_equal; apply IH; cbn in LU; lia).
    destruct (count_cores N B HSB axis_of axis_of_tn slave (combine ms ups) outs 0 0 [] []) as (po & tas & E & F).
    { exact ms_cut. } { exact R. } { lia. }
    { intros c mu e A D. cbn. apply (HSl c (fst mu) e); [|exact D]. rewrite <- MF. rewrite nth_error_map, A. reflexivity. }
    { split; [discriminate|]. split; [intros t (e & j & f & A & _); lia|]. rewrite Nat.mul_0_r. cbn. lia. }
    exists tas. set (row := fun e => (e, concat (map (fun j => seq (goff nbo (tn B e j)) (nbo (j / 2))) (seq 0 6)))).
    assert (X : exists gms, Forall2 (fun ot gm => exists tew, gm_tew nbo (fst (fst ot)) (snd ot) = Some tew /\ gm_trace tew (snd (fst ot)) = Some gm) (combine outs tas) gms /\
      map (map fst) gms = map (map fst) (map fst (combine ms ups)) /\ concat gms = map row (seq 0 (N - 0))).
    { pose proof ms_cut as HC. clear - F R HC H6 HK HM HSB. revert F R HC. generalize (combine ms ups). generalize 0 as a. intros a cs. revert a outs tas. induction cs as [|[m up] cs IH]; intros a outs tas F R HC; inversion R as [|a' n up' cs' ts outs' HT HR']; subst.
      - inversion F; subst. exists []. inversion HC; subst. rewrite Nat.sub_diag. repeat split; constructor.
      - inversion F as [|o ta outs2 tas2 F1 F2]; subst. inversion HC as [|a' n2 up' cs' b HSf HC' E1 E2]; subst.
        assert (n2 = n) as -> by (apply (f_equal (@length _)) in E2; unfold brows in E2; rewrite !map_length, !seq_length in E2; congruence).
        pose proof (cut_le B _ _ _ HC') as HL. destruct (IH (a + n) outs' tas2 F2 HR' HC') as (gms & A1 & A2 & A3).
        destruct (core_dofs nbo a n up ts (trows B a n) _ HL HT eq_refl eq_refl) as (tew & T1 & T2).
        exists (map row (seq a n) :: gms). split; [cbn [combine]; constructor; [|exact A1]; exists tew; cbn [fst snd]; split; [exact T1|exact T2]|]. split.
        + cbn [map fst]. rewrite A2. f_equal. rewrite brows_keys, map_map. cbn. apply map_id.
        + cbn [concat]. rewrite A3, <- map_app. f_equal. replace (N - a) with (n + (N - (a + n))) by lia. rewrite seq_app. reflexivity. }
    destruct X as (gms & A1 & A2 & A3). rewrite MF in A2. rewrite Nat.sub_0_r in A3. exists gms.
    split; [unfold type_amounts; rewrite MF in E; rewrite E; reflexivity|]. split; [exact A1|]. split; [exact A2|]. rewrite A3.
    assert (SD : forall e j i d, side_dof nbo (map row (seq 0 N)) e j i d <-> e < N /\ j < 6 /\ i < nbo (j / 2) /\ d = goff nbo (tn B e j) + i).
    { intros e j i d. unfold side_dof, entry.
      assert (NE : j < 6 -> i < nbo (j / 2) -> nth_error (snd (row e)) (sum (map (fun k => nbo (k / 2)) (seq 0 j)) + i) = Some (goff nbo (tn B e j) + i)).
      { intros Hj Hi. unfold row. cbn [snd]. rewrite (nth_error_flat (fun j => seq (goff nbo (tn B e j)) (nbo (j / 2))) (fun k => nbo (k / 2))) by (auto using seq_length). apply nth_error_seq_lt. exact Hi. }
      split.
      - intros (Hj & Hi & v & Hv & Ev). apply in_map_iff in Hv as (e' & Q & He). apply in_seq in He. pose proof (f_equal fst Q) as Q1. pose proof (f_equal snd Q) as Q2. cbn [fst] in Q1. unfold row in Q1 at 1. cbn [fst] in Q1. subst e'. cbn [snd] in Q2. rewrite <- Q2, NE in Ev by assumption. injection Ev as <-. repeat split; auto; lia.
      - intros (He & Hj & Hi & ->). split; [exact Hj|]. split; [exact Hi|]. exists (snd (row e)). split; [|apply NE; assumption]. apply in_map_iff. exists e. split; [reflexivity|apply in_seq; lia]. }
    assert (TE : forall e j t, entry (concat (map snd outs)) e j t <-> e < N /\ j < 6 /\ t = tn B e j).
    { intros e j t. rewrite I2. unfold trows. rewrite trows_entry. rewrite Nat.sub_0_r. split; intros (Q1 & Q2 & Q3); repeat split; auto; lia. }
    split; [|split].
    - intros e v Hv. apply in_map_iff in Hv as (e' & Q & _). apply (f_equal snd) in Q. cbn [snd] in Q. rewrite <- Q. unfold row. cbn [snd]. generalize (seq 0 6). induction l as [|k l IH]; [reflexivity|]. cbn [map concat sum]. rewrite app_length, seq_length, IH, sum_cons. reflexivity.
    - intros e j i d f k l d' X Y. apply SD in X as (X1 & X2 & X3 & ->). apply SD in Y as (Y1 & Y2 & Y3 & ->). unfold goff. split.
      + intros Q. rewrite <- (axis_of_tn e j X1 X2) in X3. rewrite <- (axis_of_tn f k Y1 Y2) in Y3. apply sum_map_inj in Q as [Q1 Q2]; auto. split; [exact Q2|]. exists (tn B e j). rewrite !TE. auto.
      + intros (-> & t & Q1 & Q2). apply TE in Q1 as (_ & _ & ->). apply TE in Q2 as (_ & _ & ->). reflexivity.
    - exists (sum (map (fun u => nbo (axis_of u)) (seq 0 (cnt B (6 * N))))). intros d. split.
      + intros Hd. apply sum_map_find in Hd as (t & i & Ht & Hi & ->). apply (tn_surj N B) in Ht as (e & j & He & Hj & <- & _). exists e, j, i. apply SD. rewrite axis_of_tn in Hi by assumption. auto.
      + intros (e & j & i & X). apply SD in X as (X1 & X2 & X3 & ->). rewrite <- (axis_of_tn e j X1 X2) in X3. pose proof (tn_range N B HSB e j X1 X2) as Q. pose proof (sum_map_le (fun u => nbo (axis_of u)) (S (tn B e j)) (cnt B (6 * N)) Q) as Q'. rewrite sum_map_S in Q'. unfold goff. lia.
  Qed.
End Ms.

Section TMesh.
  Context (corner : nat -> nat -> nat) (bnames : list nat) (bsides : list (nat * (nat * nat))) (m : rmap) (g : nat -> list nat -> nat) (lays : list (list nat)) (sc : nat -> scheme).
  Context (bps : list (nat * nat)) (pairs : list ((nat * side) * (nat * side))).
  Context (HB : forall b, In b bnames -> length lays <= b) (HS : forall x, In x bsides -> In (fst x) bnames /\ snd (snd x) < 6).
  Context (E : region_map corner (length lays) bnames bsides = Some m).
  Context (H3 : Forall (fun lay => length lay = 3 /\ Forall (fun n => 1 <= n) lay) lays).
  Context (HL : forall r lay, nth_error lays r = Some lay -> lens_ok (prodl lay) (sc r)).
  Context (HP : boundary_pairs bsides bps = Some pairs).
  Notation num := (fun r => option_map fst (region_numbering g lays sc r)).
  Notation rm := (fun r i => name_of (m r i)).
  Context (ps : list epair) (EPS : concat_some (map (side_pairs num (length lays)) pairs) = Some ps).
  Theorem mesh_dofs d ms nbo : partition (length d) (sum (map prodl lays)) (element_ranges 0 d) -> Forall2 (fun els mm => core_map num lays rm bnames pairs els = Some mm) (element_ranges 0 d) ms ->
    exists outs G tas gms, trace_elements (map (fun mm => (mm, useful_pairs mm ps)) ms) = Some (outs, G) /\ type_amounts (slave_of d (length d)) G (combine ms (map fst outs)) = Some tas /\
      Forall2 (fun ot gm => exists tew, gm_tew nbo (fst (fst ot)) (snd ot) = Some tew /\ gm_trace tew (snd (fst ot)) = Some gm) (combine outs tas) gms /\
      map (map fst) gms = element_ranges 0 d /\
      (forall e j i x f k l y, side_dof nbo (concat gms) e j i x -> side_dof nbo (concat gms) f k l y -> x = y <-> i = l /\ ((e = f /\ j = k) \/ (entry (concat ms) e j (El f) /\ k = facing j))) /\
      (exists total, forall x, x < total <-> exists e j i, side_dof nbo (concat gms) e j i x).
  Proof.
    intros PA F. destruct (mesh_hyps corner bnames bsides m g lays sc bps pairs HB HS E H3 HL HP ps EPS (length d) _ ms PA F) as (K & L & M & SF).
    assert (KE : map (map fst) ms = element_ranges 0 d).
    { clear - F. induction F as [|els mm rs ms Q F IH]; cbn; [reflexivity|]. f_equal; [|exact IH]. rewrite core_map_full in Q. destruct (element_map_rows _ lays _ bnames pairs els mm Q) as (ps' & _ & R). clear - R. induction R as [|e er els m9 (E1 & _) R IH]; cbn; congruence. }
    assert (HSl : forall c mm e, nth_error ms c = Some mm -> In e (map fst mm) -> slave_of d (length d) e = Some c).
    { intros c mm e H1 H2. apply slave_ok; [reflexivity|]. exists (map fst mm). split; [|exact H2]. rewrite <- KE. exact (map_nth_error (map fst) c ms H1). }
    destruct (traces_ok _ ms K L M _ SF) as (outs & G & ET & _ & T1 & T2). cbn zeta in T1, T2.
    destruct (dofs_ok _ ms K L M _ SF _ outs G nbo HSl ET) as (tas & gms & A1 & A2 & A3 & _ & A5 & A6). rewrite combine_map in ET.
    exists outs, G, tas, gms. split; [exact ET|]. split; [exact A1|]. split; [exact A2|]. split; [rewrite A3; exact KE|]. split; [|exact A6].
    intros e j i x f k l y X Y. rewrite (A5 e j i x f k l y X Y).
    assert (TE : forall e j i x, side_dof nbo (concat gms) e j i x -> exists t, entry (concat (map snd outs)) e j t).
    { clear - A5. intros e j i x X. destruct (A5 e j i x e j i x X X) as [Q _]. destruct (Q eq_refl) as (_ & t & Ht & _). eauto. }
    destruct (TE _ _ _ _ X) as (t & Ht). destruct (TE _ _ _ _ Y) as (u & Hu). split; intros (-> & Q); (split; [reflexivity|]).
    - destruct Q as (v & Q1 & Q2). apply (T1 _ _ _ _ v v Q1 Q2). reflexivity.
    - apply (T1 _ _ _ _ t u Ht Hu) in Q as ->. eauto.
  Qed.
End TMesh.
