(** Proofs about CochainModel: global cochains and their round trips. *)
From Coq Require Import List Arith ZArith QArith Qcanon Bool Lia.
From Verif Require Import Prelude PreludeProofs AssembleModel MeshMapModel SpacingModel SpacingProofs GatherModel GatherSpec GatherProofs CochainModel CochainSpec.
From Verif Require SpaceProofs.
Import ListNotations.
Local Open Scope nat_scope.

Lemma is0_iff x : is0 x = true <-> x = q0.
Proof. unfold is0. destruct (Qc_eq_dec x q0); split; congruence. Qed.
Lemma mem_in d l : mem d l = true <-> In d l.
Proof. unfold mem. rewrite existsb_exists. split; [intros (x & Hx & E); apply Nat.eqb_eq in E; now subst|intros H; exists d; split; [exact H|apply Nat.eqb_refl]]. Qed.
Lemma put_map f c idx d : put f idx (map c idx) d = if mem d idx then c d else f d.
Proof.
  unfold put. revert f. induction idx as [|i idx IH]; intros f; [reflexivity|]. cbn [map combine fold_left]. rewrite IH. unfold put1. cbn [fst snd mem existsb].
  change (existsb (Nat.eqb d) idx) with (mem d idx). destruct (mem d idx); [now rewrite orb_true_r|]. rewrite orb_false_r. destruct (Nat.eqb_spec d i) as [->|]; reflexivity.
Qed.
Lemma globe_core_ok K (gm : LocalGM) loc c : (forall e v, In (e, v) gm -> lookup Nat.eqb e loc = Some (map c v)) -> (forall e v d, In (e, v) gm -> In d v -> d < K) ->
  exists f, globe_core K gm loc = Some f /\ forall d, f d = if mem d (concat (map snd gm)) then c d else q0.
Proof.
  intros H B. unfold globe_core.
  assert (G : forall f0 done, (forall d, f0 d = if mem d done then c d else q0) -> exists f, fold_left (globe_one K loc) gm (Some f0) = Some f /\ forall d, f d = if mem d (done ++ concat (map snd gm)) then c d else q0).
  { induction gm as [|[e v] gm IH]; intros f0 done F0.
    - exists f0. split; [reflexivity|]. intros d. cbn. rewrite app_nil_r. apply F0.
    - cbn [fold_left]. unfold globe_one at 2. cbn [fst snd]. rewrite (H e v (or_introl eq_refl)). rewrite map_length, Nat.eqb_refl. cbn [andb].
      replace (forallb (fun d => d <? K) v) with true by (symmetry; apply forallb_forall; intros d Hd; apply Nat.ltb_lt; apply (B e v d (or_introl eq_refl) Hd)).
      destruct (IH (fun e' v' I => H e' v' (or_intror I)) (fun e' v' d I => B e' v' d (or_intror I)) (put f0 v (map c v)) (done ++ v)) as (f & E & F).
      + intros d. rewrite put_map, F0. unfold mem. rewrite existsb_app. destruct (existsb (Nat.eqb d) v); [now rewrite orb_true_r|now rewrite orb_false_r].
      + exists f. split; [exact E|]. intros d. rewrite F. cbn [map concat snd]. now rewrite app_assoc. }
  destruct (G (fun _ => q0) [] (fun _ => eq_refl)) as (f & E & F). exists f. split; [exact E|exact F].
Qed.
Lemma stored_entry K f d : entry_of (stored K f) d = if d <? K then f d else q0.
Proof.
  unfold entry_of, stored. assert (G : forall a n, match lookup Nat.eqb d (filter (fun x => negb (is0 (snd x))) (map (fun d => (d, f d)) (seq a n))) with Some x => x | None => q0 end = if (a <=? d) && (d <? a + n) then f d else q0).
  { intros a n. revert a. induction n as [|n IH]; intros a.
    - cbn [seq map filter lookup]. rewrite Nat.add_0_r. destruct (Nat.leb_spec a d), (Nat.ltb_spec d a); cbn [andb]; try reflexivity; exfalso; lia.
    - cbn [seq map filter snd]. destruct (is0 (f a)) eqn:E0; cbn [negb].
      + rewrite IH. apply is0_iff in E0. destruct (Nat.leb_spec (S a) d), (Nat.ltb_spec d (S a + n)), (Nat.leb_spec a d), (Nat.ltb_spec d (a + S n)); cbn; try lia; try reflexivity. replace d with a by lia. now rewrite E0.
      + cbn [lookup]. destruct (Nat.eqb_spec d a) as [->|NE].
        * replace (a <=? a) with true by (symmetry; apply Nat.leb_le; lia). replace (a <? a + S n) with true by (symmetry; apply Nat.ltb_lt; lia). reflexivity.
        * rewrite IH. destruct (Nat.leb_spec (S a) d), (Nat.ltb_spec d (S a + n)), (Nat.leb_spec a d), (Nat.ltb_spec d (a + S n)); cbn; try lia; reflexivity. }
  rewrite G. reflexivity.
Qed.
Lemma stored_in K f d x : In (d, x) (stored K f) <-> d < K /\ x = f d /\ x <> q0.
Proof.
  unfold stored. rewrite filter_In, in_map_iff. cbn [snd]. rewrite negb_true_iff. split.
  - intros ((i & [= <- <-] & Hi) & Z). apply in_seq in Hi. split; [lia|]. split; [reflexivity|]. intros E. apply is0_iff in E. congruence.
  - intros (Hd & -> & N). split; [exists d; split; [reflexivity|apply in_seq; lia]|]. destruct (is0 (f d)) eqn:E; [apply is0_iff in E; contradiction|reflexivity].
Qed.
Lemma stored_keys K f d : In d (map fst (stored K f)) <-> d < K /\ f d <> q0.
Proof.
  rewrite in_map_iff. split; [intros ([i x] & <- & H); apply stored_in in H as (A & -> & B); auto|]. intros (A & B). exists (d, f d). split; [reflexivity|]. apply stored_in. auto.
Qed.
Lemma stored_NoDup K f : NoDup (map fst (stored K f)).
Proof.
  unfold stored. assert (G : forall a n, NoDup (map fst (filter (fun x : nat * Qc => negb (is0 (snd x))) (map (fun d => (d, f d)) (seq a n)))) /\ forall d, In d (map fst (filter (fun x : nat * Qc => negb (is0 (snd x))) (map (fun d => (d, f d)) (seq a n)))) -> a <= d).
  { intros a n. revert a. induction n as [|n IH]; intros a; [split; [constructor|intros d []]|]. cbn [seq map filter snd]. destruct (IH (S a)) as [I1 I2]. destruct (negb (is0 (f a))).
    - split; [cbn [map fst]; constructor; [intros H; apply I2 in H; lia|exact I1]|]. intros d [<-|H]; [cbn; lia|apply I2 in H; lia].
    - split; [exact I1|]. intros d H. apply I2 in H. lia. }
  apply G.
Qed.
Lemma qsum_two (ps : list part) d x : (forall p, In p ps -> entry_of p d = if mem d (map fst p) then x else q0) -> qsum (map (fun p => entry_of p d) ps) = (qnat (length (filter (fun p => mem d (map fst p)) ps)) * x)%Qc.
Proof.
  intros H. induction ps as [|p ps IH].
  - cbn. change (qnat 0) with q0. unfold q0. ring.
  - cbn [map filter]. unfold qsum. cbn [fold_right]. fold (qsum (map (fun p => entry_of p d) ps)). rewrite IH by (intros; apply H; now right). rewrite (H p (or_introl eq_refl)). destruct (mem d (map fst p)).
    + cbn [length]. unfold qnat. replace (Z.of_nat (S (length (filter (fun p => mem d (map fst p)) ps)))) with (1 + Z.of_nat (length (filter (fun p => mem d (map fst p)) ps)))%Z by lia. rewrite inject_Z_plus.
      set (n := inject_Z (Z.of_nat _)). replace (Q2Qc (inject_Z 1 + n)) with (Q2Qc 1 + Q2Qc n)%Qc; [ring|]. unfold Qcplus. apply Qc_is_canon. unfold Q2Qc. cbn [this]. rewrite !Qred_correct. reflexivity.
    + unfold q0. ring.
Qed.
Lemma qnat_pos n : n <> 0 -> qnat n <> q0.
Proof. intros H E. assert (X := nat_pos n ltac:(lia)). unfold qnat in E. rewrite E in X. exact (Qclt_not_eq _ _ X eq_refl). Qed.
Lemma all_some_F2 {A B} (g : A -> option B) (R : A -> B -> Prop) l : (forall a, In a l -> exists b, g a = Some b /\ R a b) -> exists bs, all_some (map g l) = Some bs /\ Forall2 R l bs.
Proof.
  induction l as [|a l IH]; intros H; [exists []; split; [reflexivity|constructor]|]. destruct (H a (or_introl eq_refl)) as (b & E & Rb). destruct IH as (bs & Es & F); [intros; apply H; now right|].
  exists (b :: bs). split; [cbn; rewrite E, Es; reflexivity|constructor; assumption].
Qed.
Lemma F2_nth {A B} (R : A -> B -> Prop) l m : Forall2 R l m -> forall i a, nth_error l i = Some a -> exists b, nth_error m i = Some b /\ R a b.
Proof. induction 1 as [|x y l m H F IH]; intros [|i] a E; try discriminate; [injection E as <-; exists y; auto|apply IH; exact E]. Qed.
Lemma F2_nth_r {A B} (R : A -> B -> Prop) l m : Forall2 R l m -> forall i b, nth_error m i = Some b -> exists a, nth_error l i = Some a /\ R a b.
Proof. induction 1 as [|x y l m H F IH]; intros [|i] b E; try discriminate; [injection E as <-; exists x; auto|apply IH; exact E]. Qed.
Lemma F2_len {A B} (R : A -> B -> Prop) l m : Forall2 R l m -> length l = length m.
Proof. induction 1; cbn; congruence. Qed.
Lemma in_maxl d l : In d l -> d <= maxl l.
Proof. unfold maxl. induction l as [|x l IH]; [intros []|]. cbn. intros [->|H]; [lia|]. apply IH in H. lia. Qed.
Lemma minl_in d l : In d l -> minl l <= d.
Proof.
  destruct l as [|x l]; [intros []|]. cbn [minl]. intros H. assert (G : fold_right Nat.min x l <= x /\ forall y, In y l -> fold_right Nat.min x l <= y).
  { clear. induction l as [|y l [I1 I2]]; [cbn; split; [lia|intros _ []]|]. cbn [fold_right]. split; [lia|]. intros z [<-|Hz]; [lia|]. apply I2 in Hz. lia. }
  destruct H as [<-|H]; [exact (proj1 G)|exact (proj2 G d H)].
Qed.
Lemma filter_le1 {A} (P : A -> bool) l : (forall i j a b, nth_error l i = Some a -> nth_error l j = Some b -> P a = true -> P b = true -> i = j) -> length (filter P l) <= 1.
Proof.
  induction l as [|x l IH]; intros H; [cbn; lia|]. cbn [filter]. assert (IH' : length (filter P l) <= 1) by (apply IH; intros i j a b Ha Hb Pa Pb; assert (S i = S j) by (apply (H (S i) (S j) a b); assumption); lia).
  destruct (P x) eqn:E; [|exact IH']. cbn [length]. destruct (filter P l) as [|y m] eqn:F; [cbn; lia|]. exfalso. assert (Hy : In y (filter P l)) by (rewrite F; now left). apply filter_In in Hy as [Hy Py]. apply In_nth_error in Hy as (i & Hi).
  assert (0 = S i) by (apply (H 0 (S i) x y); auto). lia.
Qed.
Lemma nth_local (gms : GMat) r gm : nth_error gms r = Some gm -> gm_local gms r = gm /\ nth r gms [] = gm.
Proof. intros H. split; unfold gm_local; apply nth_error_nth; exact H. Qed.

Section Round.
  Variables (gms : GMat) (K : nat) (locs : list lcoch) (c : nat -> Qc).
  Hypothesis HK : global_num_dofs gms = Some K.
  Hypothesis HA : agrees gms locs c.
  Lemma K_bound r e v d : In (e, v) (nth r gms []) -> In d v -> d < K.
  Proof.
    intros He Hd. unfold global_num_dofs in HK. destruct (existsb _ _); [discriminate|]. destruct (map snd (concat gms)) as [|v0 vs] eqn:E; [discriminate|]. rewrite <- E in HK. assert (KE : K = S (maxl (concat (map snd (concat gms))))) by congruence. subst K.
    assert (G : In d (concat (map snd (concat gms)))); [|apply in_maxl in G; lia]. apply in_concat. exists v. split; [|exact Hd]. apply in_map_iff. exists (e, v). split; [reflexivity|].
    apply in_concat. exists (nth r gms []). split; [|exact He]. apply nth_In. destruct (Nat.lt_ge_cases r (length gms)); [assumption|]. rewrite nth_overflow in He by assumption. destruct He.
  Qed.
  Definition row_ok (gm : LocalGM) (f : row) : Prop := forall d, f d = if mem d (concat (map snd gm)) then c d else q0.
  Lemma rows_ok : exists rows, all_some (map (fun gl => globe_core K (fst gl) (snd gl)) (combine gms locs)) = Some rows /\ Forall2 row_ok gms rows.
  Proof.
    destruct HA as [L A]. destruct (all_some_F2 (fun gl : LocalGM * lcoch => globe_core K (fst gl) (snd gl)) (fun gl f => row_ok (fst gl) f) (combine gms locs)) as (rows & E & F).
    - intros [gm loc] Hin. apply In_nth_error in Hin as (r & Hr). rewrite SpaceProofs.nth_error_combine in Hr. destruct (nth_error gms r) as [gm'|] eqn:Eg; [|discriminate]. destruct (nth_error locs r) as [loc'|] eqn:El; [|discriminate].
      injection Hr as <- <-. destruct (nth_local gms r gm' Eg) as [_ N]. cbn [fst snd]. apply globe_core_ok.
      + intros e v He. specialize (A r e v). rewrite N in A. rewrite (nth_error_nth _ _ _ El) in A. apply A. exact He.
      + intros e v d He Hd. apply (K_bound r e v); [rewrite N; exact He|exact Hd].
    - exists rows. split; [exact E|]. clear E. assert (G : forall (g : GMat) (l : list lcoch) rs, length l = length g -> Forall2 (fun gl f => row_ok (fst gl) f) (combine g l) rs -> Forall2 row_ok g rs).
      { induction g as [|x g IH]; intros [|y l] rs Hl Fr; try discriminate; [inversion Fr; constructor|]. cbn [combine] in Fr. inversion Fr; subst. constructor; [assumption|]. apply (IH l); [cbn in Hl; lia|assumption]. }
      exact (G gms locs rows L F).
  Qed.
  Definition value (d : nat) : Qc := if mem d (concat (map snd (concat gms))) then c d else q0.
  Lemma value_at r e v d : In (e, v) (nth r gms []) -> In d v -> value d = c d.
  Proof.
    intros He Hd. unfold value. replace (mem d _) with true; [reflexivity|]. symmetry. apply mem_in. apply in_concat. exists v. split; [|exact Hd]. apply in_map_iff. exists (e, v). split; [reflexivity|].
    apply in_concat. exists (nth r gms []). split; [|exact He]. apply nth_In. destruct (Nat.lt_ge_cases r (length gms)); [assumption|]. rewrite nth_overflow in He by assumption. destruct He.
  Qed.
  Lemma on_core_mem r gm d : nth_error gms r = Some gm -> (mem d (concat (map snd gm)) = true <-> on_core gms r d).
  Proof.
    intros E. destruct (nth_local gms r gm E) as [_ N]. unfold on_core. rewrite N, mem_in, in_concat. split.
    - intros (v & Hv & Hd). apply in_map_iff in Hv as ([e v'] & <- & He). exists e, v'. auto.
    - intros (e & v & He & Hd). exists v. split; [apply in_map_iff; exists (e, v); auto|exact Hd].
  Qed.
  Variable rows : list row.
  Hypothesis HR : Forall2 row_ok gms rows.
  Let ps := map (stored K) rows.
  Lemma part_of i p : nth_error ps i = Some p -> exists gm f, nth_error gms i = Some gm /\ nth_error rows i = Some f /\ p = stored K f /\ row_ok gm f.
  Proof.
    intros H. unfold ps in H. rewrite nth_error_map in H. destruct (nth_error rows i) as [f|] eqn:E; [|discriminate]. injection H as <-. destruct (F2_nth_r _ _ _ HR i f E) as (gm & Eg & Ro). exists gm, f. auto.
  Qed.
  (** what is stored is the value, which is not 0 *)
  Lemma part_values p : In p ps -> map snd p = map c (map fst p).
  Proof.
    intros H. apply In_nth_error in H as (i & H). apply part_of in H as (gm & f & _ & _ & -> & Ro). rewrite map_map. apply map_ext_in. intros [d x] Hx. apply stored_in in Hx as (_ & -> & N). cbn. rewrite Ro in *. destruct (mem d _); [reflexivity|contradiction].
  Qed.
  Lemma part_keys i p d : nth_error ps i = Some p -> (mem d (map fst p) = true <-> on_core gms i d /\ c d <> q0).
  Proof.
    intros H. destruct (part_of i p H) as (gm & f & Eg & _ & -> & Ro). rewrite mem_in, stored_keys, <- (on_core_mem i gm d Eg), Ro. split.
    - intros (B & N). destruct (mem d _); [auto|contradiction].
    - intros (M & N). rewrite M. split; [|exact N]. apply (on_core_mem i gm d Eg) in M as (e & v & He & Hd). exact (K_bound i e v d He Hd).
  Qed.
  Lemma part_entry p d : In p ps -> d < K -> entry_of p d = if mem d (map fst p) then c d else q0.
  Proof.
    intros H B. apply In_nth_error in H as (i & H). assert (KK := part_keys i p d H). destruct (part_of i p H) as (gm & f & Eg & _ & -> & Ro). rewrite stored_entry. replace (d <? K) with true by (symmetry; apply Nat.ltb_lt; exact B).
    rewrite Ro. rewrite <- (on_core_mem i gm d Eg) in KK. destruct (mem d (map fst (stored K f))), (mem d (concat (map snd gm))); try reflexivity.
    - destruct KK as [KK _]. destruct (KK eq_refl) as [Q _]. discriminate.
    - destruct (Qc_eq_dec (c d) q0) as [E|N]; [exact E|]. destruct KK as [_ KK]. discriminate (KK (conj eq_refl N)).
  Qed.
  Lemma value_stored d : (exists p, In p ps /\ mem d (map fst p) = true) <-> value d <> q0.
  Proof.
    unfold value. split.
    - intros (p & Hp & M). apply In_nth_error in Hp as (i & Hi). apply (part_keys i p d Hi) in M as [(e & v & He & Hd) N]. assert (V := value_at i e v d He Hd). unfold value in V. rewrite V. exact N.
    - destruct (mem d _) eqn:M; [|contradiction]. intros N. apply mem_in in M. apply in_concat in M as (v & Hv & Hd). apply in_map_iff in Hv as ([e v'] & <- & He). apply in_concat in He as (gm & Hg & He). apply In_nth_error in Hg as (i & Hi).
      destruct (F2_nth _ _ _ HR i gm Hi) as (f & Ef & Ro). exists (stored K f). assert (Hp : nth_error ps i = Some (stored K f)) by (unfold ps; rewrite nth_error_map, Ef; reflexivity).
      split; [eapply nth_error_In; exact Hp|]. apply (part_keys i _ d Hp). split; [|exact N]. exists e, v'. destruct (nth_local gms i gm Hi) as [_ ->]. auto.
  Qed.
  Definition holders d := length (filter (fun p => mem d (map fst p)) ps).
  Lemma sum_value d : d < K -> qsum (map (fun p => entry_of p d) ps) = (qnat (holders d) * value d)%Qc.
  Proof.
    intros B. rewrite (qsum_two ps d (c d)) by (intros p Hp; apply part_entry; assumption). fold (holders d). unfold value. destruct (mem d _) eqn:M; [reflexivity|].
    assert (Z : holders d = 0); [|rewrite Z; change (qnat 0) with q0; unfold q0; ring]. unfold holders. destruct (filter (fun p => mem d (map fst p)) ps) as [|p l] eqn:F; [reflexivity|]. assert (Hp : In p (filter (fun p => mem d (map fst p)) ps)) by (rewrite F; now left). apply filter_In in Hp as [Hp Mp].
    assert (V : value d <> q0) by (apply value_stored; eauto). unfold value in V. rewrite M in V. contradiction.
  Qed.
  Lemma holders_0 d : holders d = 0 -> value d = q0.
  Proof.
    intros Z. destruct (Qc_eq_dec (value d) q0) as [E|N]; [exact E|]. apply value_stored in N as (p & Hp & M). unfold holders in Z. assert (Hi : In p (filter (fun p => mem d (map fst p)) ps)) by (apply filter_In; auto). destruct (filter (fun p => mem d (map fst p)) ps); [destruct Hi|discriminate].
  Qed.
  Lemma average_value d : d < K -> average ps d = value d.
  Proof.
    intros B. unfold average. rewrite sum_value by exact B. unfold measure. fold (holders d). destruct (Nat.eqb_spec (holders d) 0) as [Z|N].
    - rewrite (holders_0 d Z). change (qnat 1) with (Q2Qc 1). unfold Qcdiv, q0. ring.
    - field. exact (qnat_pos _ N).
  Qed.
End Round.
