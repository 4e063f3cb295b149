From Coq Require Import List Arith Lia QArith Qcanon.
From Verif Require Import Prelude PreludeProofs SpacingModel SpacingSpec.
Import ListNotations.
Local Open Scope nat_scope.

Lemma qpos_lt x : qpos x = true <-> (Q2Qc 0 < x)%Qc.
Proof. unfold qpos. rewrite Qclt_alt. destruct (Qccompare (Q2Qc 0) x); split; congruence. Qed.
Lemma qsum_app l m : qsum (l ++ m) = (qsum l + qsum m)%Qc.
Proof.
  induction l as [|x l IH]; cbn [app]; [change (qsum []) with (Q2Qc 0); ring|].
  change (qsum (x :: l ++ m)) with (x + qsum (l ++ m))%Qc. change (qsum (x :: l)) with (x + qsum l)%Qc. rewrite IH. ring.
Qed.
Lemma qsum_firstn_S l j : j < length l -> qsum (firstn (S j) l) = (qsum (firstn j l) + nth j l (Q2Qc 0))%Qc.
Proof.
  revert j. induction l as [|x l IH]; intros [|j] H; cbn in H; try lia.
  - cbn. ring.
  - change (firstn (S (S j)) (x :: l)) with (x :: firstn (S j) l). change (firstn (S j) (x :: l)) with (x :: firstn j l). change (nth (S j) (x :: l) (Q2Qc 0)) with (nth j l (Q2Qc 0)).
    change (qsum (x :: firstn (S j) l)) with (x + qsum (firstn (S j) l))%Qc. change (qsum (x :: firstn j l)) with (x + qsum (firstn j l))%Qc. rewrite IH by lia. ring.
Qed.
Lemma qsum_pos l : l <> [] -> Forall (fun x => (Q2Qc 0 < x)%Qc) l -> (Q2Qc 0 < qsum l)%Qc.
Proof.
  intros N H. induction H as [|x l Hx H IH]; [congruence|]. change (qsum (x :: l)) with (x + qsum l)%Qc. destruct l as [|y l].
  - replace (x + qsum [])%Qc with x by (cbn; ring). exact Hx.
  - assert (Q := IH ltac:(discriminate)). apply Qclt_trans with x; [exact Hx|]. apply Qcle_lt_trans with (x + Q2Qc 0)%Qc; [replace (x + Q2Qc 0)%Qc with x by ring; apply Qcle_refl|].
    unfold Qclt, Qcplus in *. cbn [this Q2Qc] in *. rewrite !Qred_correct. rewrite Qplus_lt_r. exact Q.
Qed.
Lemma qsum_map_div l c : qsum (map (fun x => (x / c)%Qc) l) = (qsum l / c)%Qc.
Proof. unfold Qcdiv. induction l as [|x l IH]; [cbn; ring|]. cbn [map]. change (qsum (x :: l)) with (x + qsum l)%Qc. change (qsum ((x * / c)%Qc :: map (fun x => (x * / c)%Qc) l)) with (x * / c + qsum (map (fun x => (x * / c)%Qc) l))%Qc. rewrite IH. ring. Qed.
Lemma div_pos x c : (Q2Qc 0 < x)%Qc -> (Q2Qc 0 < c)%Qc -> (Q2Qc 0 < x / c)%Qc.
Proof.
  unfold Qcdiv, Qclt. cbn [this Q2Qc Qcmult Qcinv]. intros A B. change (Qred 0) with 0%Q in *. rewrite Qred_correct.
  apply Qmult_lt_0_compat; [exact A|]. rewrite Qred_correct. apply Qinv_lt_0_compat. exact B.
Qed.
Lemma nat_pos n : 1 <= n -> (Q2Qc 0 < Q2Qc (inject_Z (Z.of_nat n)))%Qc.
Proof. intros H. unfold Qclt. cbn [this Q2Qc]. rewrite !Qred_correct. change 0%Q with (inject_Z 0). rewrite <- Zlt_Qlt. lia. Qed.
Lemma qsum_repeat x n : qsum (repeat x n) = (Q2Qc (inject_Z (Z.of_nat n)) * x)%Qc.
Proof.
  induction n as [|n IH]; [change (Q2Qc 0 = Q2Qc 0 * x)%Qc; ring|]. cbn [repeat]. change (qsum (x :: repeat x n)) with (x + qsum (repeat x n))%Qc. rewrite IH.
  replace (Q2Qc (inject_Z (Z.of_nat (S n)))) with (Q2Qc 1 + Q2Qc (inject_Z (Z.of_nat n)))%Qc; [ring|].
  apply Qc_is_canon. cbn [this Qcplus Q2Qc]. rewrite !Qred_correct, Nat2Z.inj_succ, <- Z.add_1_l, inject_Z_plus. reflexivity.
Qed.
Definition ratios_ok (l : list Qc) : Prop := l <> [] /\ Forall (fun x => (Q2Qc 0 < x)%Qc) l /\ qsum l = Q2Qc 1.
Lemma axis_ok a r : axis_ratio a = Some r -> ratios_ok r.
Proof.
  destruct a as [n|l]; cbn [axis_ratio].
  - destruct (1 <=? n) eqn:E; [|discriminate]. apply Nat.leb_le in E. intros [= <-]. assert (P := nat_pos n E). split; [destruct n; [lia|discriminate]|]. split.
    + apply Forall_forall. intros x Hx. apply repeat_spec in Hx. subst x. apply div_pos; [reflexivity|exact P].
    + rewrite qsum_repeat. assert (NZ : Q2Qc (inject_Z (Z.of_nat n)) <> Q2Qc 0) by (intros G; rewrite G in P; discriminate P).
      field. exact NZ.
  - destruct l as [|y l]; [discriminate|]. set (L := y :: l). destruct (forallb qpos L) eqn:E; [|discriminate]. intros [= <-].
    assert (F : Forall (fun x => (Q2Qc 0 < x)%Qc) L) by (apply Forall_forall; intros x Hx; apply qpos_lt; exact (proj1 (forallb_forall _ _) E x Hx)).
    assert (P := qsum_pos L ltac:(discriminate) F). split; [discriminate|]. split.
    + apply Forall_forall. intros x Hx. change (In x (map (fun x => (x / qsum L)%Qc) L)) in Hx. apply in_map_iff in Hx. destruct Hx as (z & <- & Hz). apply div_pos; [exact (proj1 (Forall_forall _ _) F z Hz)|exact P].
    + change (qsum (map (fun x => (x / qsum L)%Qc) L) = Q2Qc 1). rewrite qsum_map_div. apply Qcmult_inv_r. intros G. rewrite G in P. discriminate P.
Qed.
Lemma spacing_length r : length (axis_spacing r) = length r + 1.
Proof. unfold axis_spacing. rewrite map_length, seq_length. reflexivity. Qed.
Lemma spacing_nth r j : ratios_ok r -> j <= length r -> nth j (axis_spacing r) (Q2Qc 0) = qsum (firstn j r).
Proof.
  intros (N & _ & S1) H. unfold axis_spacing. rewrite nth_map_seq by lia. cbn [Nat.add]. destruct (Nat.eqb_spec j (length r)) as [->|]; [rewrite firstn_all; symmetry; exact S1|].
  destruct (Nat.eqb_spec j 0) as [->|]; reflexivity.
Qed.
Lemma spacing_ok r : ratios_ok r -> nth 0 (axis_spacing r) (Q2Qc 0) = Q2Qc 0 /\ nth (length r) (axis_spacing r) (Q2Qc 0) = Q2Qc 1 /\
  forall j, j < length r -> nth (S j) (axis_spacing r) (Q2Qc 0) = (nth j (axis_spacing r) (Q2Qc 0) + nth j r (Q2Qc 0))%Qc.
Proof.
  intros H. split; [rewrite spacing_nth by (auto; lia); reflexivity|]. split.
  - rewrite spacing_nth by (auto; lia). rewrite firstn_all. exact (proj2 (proj2 H)).
  - intros j Hj. rewrite !spacing_nth by (auto; lia). apply qsum_firstn_S. exact Hj.
Qed.
(** one axis is tiled *)
Lemma tile r x : ratios_ok r -> (Q2Qc 0 <= x)%Qc -> (x < Q2Qc 1)%Qc ->
  exists j, j < length r /\ (nth j (axis_spacing r) (Q2Qc 0) <= x)%Qc /\ (x < nth j (axis_spacing r) (Q2Qc 0) + nth j r (Q2Qc 0))%Qc /\
  forall k, k < length r -> (nth k (axis_spacing r) (Q2Qc 0) <= x)%Qc -> (x < nth k (axis_spacing r) (Q2Qc 0) + nth k r (Q2Qc 0))%Qc -> k = j.
Proof.
  intros H X0 X1. destruct (spacing_ok r H) as (S0 & S1 & SS). set (sp := fun j => nth j (axis_spacing r) (Q2Qc 0)) in *. change (sp 0 = Q2Qc 0) in S0. change (sp (length r) = Q2Qc 1) in S1.
  assert (SP : forall j, j < length r -> sp (S j) = (sp j + nth j r (Q2Qc 0))%Qc) by exact SS.
  assert (MONO1 : forall j, j < length r -> (sp j < sp (S j))%Qc).
  { intros j Hj. rewrite SP by exact Hj. assert (P := proj1 (Forall_forall _ _) (proj1 (proj2 H)) _ (nth_In r (Q2Qc 0) Hj)). cbn beta in P.
    unfold Qclt in *. cbn [this Q2Qc Qcplus] in *. rewrite !Qred_correct. change (Qred 0) with 0%Q in P. rewrite <- (Qplus_0_r (sp j)) at 1. rewrite Qplus_lt_r. exact P. }
  assert (MONO : forall k j, j <= k -> k <= length r -> (sp j <= sp k)%Qc).
  { induction k as [|k IH]; intros j Hj Hk; [replace j with 0 by lia; apply Qcle_refl|]. destruct (Nat.eq_dec j (S k)) as [->|]; [apply Qcle_refl|].
    apply Qcle_trans with (sp k); [apply IH; lia|]. apply Qclt_le_weak. apply MONO1. lia. }
  assert (EX : forall n, n <= length r -> (x < sp n)%Qc -> exists j, j < n /\ (sp j <= x)%Qc /\ (x < sp (S j))%Qc).
  { induction n as [|n IH]; intros Hn Hx; [rewrite S0 in Hx; exfalso; exact (Qclt_not_le _ _ Hx X0)|].
    destruct (Qclt_le_dec x (sp n)) as [L|L]; [destruct (IH ltac:(lia) L) as (j & J1 & J2); exists j; split; [lia|exact J2]|exists n; split; [lia|auto]]. }
  destruct (EX (length r) ltac:(lia) ltac:(rewrite S1; exact X1)) as (j & J1 & J2 & J3). exists j. change (nth j (axis_spacing r) (Q2Qc 0)) with (sp j).
  split; [exact J1|]. split; [exact J2|]. split; [rewrite <- SP by exact J1; exact J3|]. intros k Hk K1 K2. change (nth k (axis_spacing r) (Q2Qc 0)) with (sp k) in K1, K2. rewrite <- SP in K2 by exact Hk.
  destruct (Nat.lt_trichotomy k j) as [L|[E|L]]; [|exact E|]; exfalso.
  - apply (Qclt_not_le _ _ K2). apply Qcle_trans with (sp j); [apply MONO; lia|exact J2].
  - apply (Qclt_not_le _ _ J3). apply Qcle_trans with (sp k); [apply MONO; lia|exact K1].
Qed.
Lemma parse_ok axes lay rs ss : parse_layout axes = Some (lay, rs, ss) -> Forall ratios_ok rs /\ lay = map (@length Qc) rs /\ ss = map axis_spacing rs /\ length rs = length axes.
Proof.
  revert lay rs ss. induction axes as [|a axes IH]; intros lay rs ss H; cbn [parse_layout] in H; [injection H as <- <- <-; auto|].
  destruct (axis_ratio a) as [r|] eqn:E; [|discriminate]. destruct (parse_layout axes) as [[[lay' rs'] ss']|]; [|discriminate]. injection H as <- <- <-.
  destruct (IH _ _ _ eq_refl) as (A & -> & -> & L). split; [constructor; [exact (axis_ok a r E)|exact A]|]. cbn. auto.
Qed.
(** the boxes of a region tile its reference cube *)
Lemma cube_tiled axes lay rs ss : parse_layout axes = Some (lay, rs, ss) -> forall pt, length pt = length axes -> Forall (fun x => (Q2Qc 0 <= x)%Qc /\ (x < Q2Qc 1)%Qc) pt ->
  exists idx, Forall2 lt idx lay /\ Forall2 box_has (origin_size rs ss idx) pt /\
  forall idx', Forall2 lt idx' lay -> Forall2 box_has (origin_size rs ss idx') pt -> idx' = idx.
Proof.
  intros H. destruct (parse_ok _ _ _ _ H) as (F & -> & -> & L). clear H. rewrite <- L. clear L axes.
  induction F as [|r rs Hr F IH]; intros [|x pt] Lp Fp; try discriminate.
  - exists []. split; [constructor|]. split; [constructor|]. intros idx' Hi _. inversion Hi. reflexivity.
  - inversion Fp as [|? ? (X0 & X1) Fp']; subst. destruct (tile r x Hr X0 X1) as (j & J1 & J2 & J3 & J4). destruct (IH pt ltac:(cbn in Lp; lia) Fp') as (idx & I1 & I2 & I3).
    exists (j :: idx). split; [constructor; assumption|]. split.
    + unfold origin_size in *. cbn [map combine fst snd]. constructor; [split; cbn [fst snd]; assumption|exact I2].
    + intros idx' Hi Hb. inversion Hi as [|k ? idx2 ? K1 K2]; subst. unfold origin_size in Hb. cbn [map combine fst snd] in Hb. inversion Hb as [|? ? ? ? (B1 & B2) B3]; subst. cbn [fst snd] in *.
      rewrite (J4 k K1 B1 B2). f_equal. apply I3; [exact K2|exact B3].
Qed.
Lemma axis_spacing_ok a r : axis_ratio a = Some r -> r <> [] /\ Forall (fun x => (Q2Qc 0 < x)%Qc) r /\ length (axis_spacing r) = length r + 1 /\
  nth 0 (axis_spacing r) (Q2Qc 0) = Q2Qc 0 /\ nth (length r) (axis_spacing r) (Q2Qc 0) = Q2Qc 1 /\
  forall j, j < length r -> nth (S j) (axis_spacing r) (Q2Qc 0) = (nth j (axis_spacing r) (Q2Qc 0) + nth j r (Q2Qc 0))%Qc.
Proof. intros H. assert (R := axis_ok a r H). split; [exact (proj1 R)|]. split; [exact (proj1 (proj2 R))|]. split; [apply spacing_length|]. exact (spacing_ok r R). Qed.
