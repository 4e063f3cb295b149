(** Proofs about TraceModel: numbering of the trace elements. *)
From Coq Require Import List Arith Bool Lia.
From Verif Require Import Prelude PreludeProofs SpaceModel MeshModel MeshSpec MeshMapModel MeshMapProofs2 MeshMapProofs3 TraceModel TraceSpec.
Import ListNotations.

Lemma eqb2_spec a b : eqb2 a b = true <-> a = b.
Proof. destruct a as [a a'], b as [b b']. unfold eqb2. cbn [fst snd]. rewrite andb_true_iff, !Nat.eqb_eq. split; [intros [-> ->]; reflexivity|intros [= -> ->]; auto]. Qed.
Section Dict.
  Context {K V : Type} (eqb : K -> K -> bool) (E : forall a b, eqb a b = true <-> a = b).
  Lemma eqb_refl' a : eqb a a = true. Proof. apply E; reflexivity. Qed.
  Lemma eqb_neq a b : a <> b -> eqb a b = false. Proof. intros H. destruct (eqb a b) eqn:X; auto. apply E in X. contradiction. Qed.
  Lemma dget_ddel (d : list (K * V)) k k' : dget eqb (ddel eqb d k) k' = if eqb k k' then None else dget eqb d k'.
  Proof.
    unfold ddel. induction d as [|[a v] d IH]; cbn [filter fst]; [destruct (eqb k k'); reflexivity|].
    destruct (eqb k a) eqn:X; cbn [negb].
    - apply E in X. subst a. unfold dget in IH |- *. cbn [lookup]. rewrite IH. destruct (eqb k k') eqn:Y; [reflexivity|].
      destruct (eqb k' k) eqn:Z; [|reflexivity]. apply E in Z. subst. rewrite eqb_refl' in Y. discriminate.
    - cbn [dget lookup]. destruct (eqb k' a) eqn:Y; [|exact IH]. apply E in Y. subst a. rewrite X. reflexivity.
  Qed.
  Lemma dget_dset (d : list (K * V)) k v k' : dget eqb (dset eqb d k v) k' = if eqb k k' then Some v else dget eqb d k'.
  Proof.
    unfold dset, dget. cbn [lookup]. destruct (eqb k' k) eqn:X.
    - apply E in X. subst. rewrite eqb_refl'. reflexivity.
    - change (dget eqb (ddel eqb d k) k' = if eqb k k' then Some v else dget eqb d k'). rewrite dget_ddel.
      destruct (eqb k k') eqn:Y; [|reflexivity]. apply E in Y. subst. rewrite eqb_refl' in X. discriminate.
  Qed.
  Lemma dget_In (d : list (K * V)) k v : NoDup (map fst d) -> dget eqb d k = Some v <-> In (k, v) d.
  Proof.
    induction d as [|[a w] d IH]; cbn; intros ND; [split; [discriminate|contradiction]|]. inversion ND; subst.
    unfold dget in IH |- *. cbn [lookup]. destruct (eqb k a) eqn:X.
    - apply E in X. subst. split; [intros [= ->]; auto|]. intros [[= ->]|H]; [reflexivity|]. exfalso. apply H1. apply (in_map fst) in H. exact H.
    - rewrite IH by assumption. split; auto. intros [[= -> ->]|H]; auto. rewrite eqb_refl' in X. discriminate.
  Qed.
  Lemma dget_keys (d : list (K * V)) k : In k (map fst d) <-> exists v, dget eqb d k = Some v.
  Proof.
    induction d as [|[a w] d IH]; cbn; [split; [contradiction|intros [v [=]]]|].
    unfold dget in IH |- *. cbn [lookup]. destruct (eqb k a) eqn:X.
    - apply E in X. subst. split; eauto.
    - rewrite IH. split; [|auto]. intros [->|H]; [rewrite eqb_refl' in X; discriminate|exact H].
  Qed.
  Lemma ddel_NoDup (d : list (K * V)) k : NoDup (map fst d) -> NoDup (map fst (ddel eqb d k)) /\ ~ In k (map fst (ddel eqb d k)).
  Proof.
    intros ND. split.
    - induction d as [|[a w] d IH]; cbn; [constructor|]. inversion ND; subst. destruct (negb (eqb k a)); [|auto]. cbn. constructor; auto.
      intros H. apply H1. apply in_map_iff in H as (x & <- & H). apply filter_In in H as [H _]. apply in_map. exact H.
    - intros H. apply in_map_iff in H as (x & <- & H). apply filter_In in H as [_ H]. rewrite eqb_refl' in H. discriminate.
  Qed.
  Lemma dset_NoDup (d : list (K * V)) k v : NoDup (map fst d) -> NoDup (map fst (dset eqb d k v)).
  Proof. intros ND. cbn. destruct (ddel_NoDup d k ND). constructor; auto. Qed.
  Lemma dget_empty (d : list (K * V)) : (forall k, dget eqb d k = None) -> d = [].
  Proof. destruct d as [|[k v] d]; [reflexivity|]. intros H. specialize (H k). unfold dget in H. cbn in H. rewrite eqb_refl' in H. discriminate. Qed.
End Dict.
Lemma opp_facing j : j < 6 -> opp_index j = facing j.
Proof. do 6 (destruct j as [|j]; [reflexivity|]). lia. Qed.
Lemma facing_lt j : j < 6 -> facing j < 6 /\ facing (facing j) = j /\ (Nat.even j = true -> facing j = j + 1) /\ (Nat.even j = false -> j = facing j + 1) /\ facing j / 2 = j / 2.
Proof. do 6 (destruct j as [|j]; [cbn; repeat split; intros; try discriminate; try lia|]). lia. Qed.
Lemma code_inj e j f i : j < 6 -> i < 6 -> 6 * e + j = 6 * f + i -> e = f /\ j = i.
Proof. lia. Qed.

Section Num.
  Context (N : nat) (B : nat -> nat -> beside).
  Hypothesis HS : forall e j f, e < N -> j < 6 -> B e j = El f -> f < N /\ B f (facing j) = El e.
  (** side (e, j) is met before its partner, or has none *)
  Definition isnew (e j : nat) : bool :=
    match B e j with Bd _ => true | El f => (e <? f) || ((e =? f) && Nat.even j) end.
  Definition new_at (k : nat) : bool := isnew (k / 6) (k mod 6).
  Definition cnt (k : nat) : nat := length (filter new_at (seq 0 k)).
  Definition rep (e j : nat) : nat * nat := if isnew e j then (e, j) else match B e j with El f => (f, facing j) | Bd _ => (e, j) end.
  Definition tn (e j : nat) : nat := let r := rep e j in cnt (6 * fst r + snd r).

  Lemma cnt_S k : cnt (S k) = cnt k + if new_at k then 1 else 0.
  Proof. unfold cnt. rewrite seq_S, filter_app, app_length. cbn. destruct (new_at k); reflexivity. Qed.
  Lemma cnt_le k k' : k <= k' -> cnt k <= cnt k'.
  Proof. induction 1; [lia|]. rewrite cnt_S. lia. Qed.
  Lemma cnt_lt k k' : new_at k = true -> k < k' -> cnt k < cnt k'.
  Proof. intros H L. pose proof (cnt_le (S k) k' L). rewrite cnt_S, H in H0. lia. Qed.
  Lemma new_code e j : j < 6 -> new_at (6 * e + j) = isnew e j.
  Proof. intros H. unfold new_at. replace ((6 * e + j) / 6) with e by (rewrite Nat.mul_comm, Nat.div_add_l by lia; rewrite Nat.div_small; lia).
    replace ((6 * e + j) mod 6) with j; [reflexivity|]. rewrite Nat.add_comm, Nat.mul_comm, Nat.mod_add by lia. rewrite Nat.mod_small; lia. Qed.
  Lemma rep_ok e j : e < N -> j < 6 -> let r := rep e j in fst r < N /\ snd r < 6 /\ isnew (fst r) (snd r) = true /\
    (r = (e, j) \/ exists f, B e j = El f /\ r = (f, facing j)) /\ 6 * fst r + snd r <= 6 * e + j /\ (r <> (e, j) -> 6 * fst r + snd r < 6 * e + j).
  Proof.
    intros He Hj. cbn zeta. unfold rep. destruct (isnew e j) eqn:EN; cbn [fst snd].
    - repeat split; auto. congruence.
    - pose proof EN as EN'. unfold isnew in EN. destruct (B e j) as [f|b] eqn:EB; [|discriminate].
      destruct (HS e j f He Hj EB) as [Hf EF]. destruct (facing_lt j Hj) as (L & FF & FE & FO & _). cbn [fst snd].
      apply orb_false_elim in EN as [E1 E2]. apply Nat.ltb_ge in E1.
      assert (X : isnew f (facing j) = true /\ 6 * f + facing j < 6 * e + j).
      { unfold isnew. rewrite EF. destruct (Nat.eq_dec e f) as [->|NE].
        - rewrite Nat.eqb_refl in E2 |- *. cbn in E2. apply FO in E2 as E3. rewrite E3 in E2. replace (facing j + 1) with (S (facing j)) in E2 by lia.
          rewrite Nat.even_succ, <- Nat.negb_even in E2. apply negb_false_iff in E2. rewrite E2. split; [apply orb_true_r|lia].
        - split; [|lia]. apply orb_true_intro. left. apply Nat.ltb_lt. lia. }
      destruct X as [X1 X2]. repeat split; auto; try lia. right. exists f. auto.
  Qed.
  (** sides with equal numbers *)
  Lemma tn_eq e j f i : e < N -> j < 6 -> f < N -> i < 6 -> tn e j = tn f i <-> (e = f /\ j = i) \/ (B e j = El f /\ i = facing j).
  Proof.
    intros He Hj Hf Hi. destruct (rep_ok e j He Hj) as (R1 & R2 & R3 & R4 & _). destruct (rep_ok f i Hf Hi) as (T1 & T2 & T3 & T4 & _).
    split.
    - intros EQ. unfold tn in EQ. cbn zeta in *.
      assert (X : 6 * fst (rep e j) + snd (rep e j) = 6 * fst (rep f i) + snd (rep f i)).
      { destruct (Nat.lt_trichotomy (6 * fst (rep e j) + snd (rep e j)) (6 * fst (rep f i) + snd (rep f i))) as [L|[L|L]]; auto; exfalso;
          apply cnt_lt in L; try lia; rewrite new_code; auto. }
      apply code_inj in X as [X1 X2]; auto. assert (X : rep e j = rep f i) by (destruct (rep e j), (rep f i); cbn in *; congruence). clear EQ X1 X2.
      destruct R4 as [R4|(g & R4 & R5)], T4 as [T4|(g' & T4 & T5)].
      + left. rewrite R4, T4 in X. injection X; auto.
      + right. rewrite R4, T5 in X. injection X as -> ->. destruct (HS f i g' Hf Hi T4) as [_ Y]. destruct (facing_lt i Hi) as (_ & FF & _). rewrite FF. auto.
      + right. rewrite R5, T4 in X. injection X as -> ->. auto.
      + left. rewrite R5, T5 in X. injection X as -> X. destruct (facing_lt j Hj) as (_ & F1 & _). destruct (facing_lt i Hi) as (_ & F2 & _).
        assert (j = i) by congruence. subst i. destruct (HS e j g' He Hj R4) as [_ Y1]. destruct (HS f j g' Hf Hi T4) as [_ Y2]. rewrite Y1 in Y2. injection Y2; auto.
    - intros [[-> ->]|[EB ->]]; [reflexivity|]. unfold tn. cbn zeta. enough (rep e j = rep f (facing j)) as -> by reflexivity.
      destruct (HS e j f He Hj EB) as [_ EF]. destruct (facing_lt j Hj) as (L & FF & FE & FO & _). unfold rep, isnew. rewrite EB, EF.
      destruct (Nat.lt_trichotomy e f) as [X|[X|X]].
      + rewrite (proj2 (Nat.ltb_lt e f)) by lia. cbn [orb]. rewrite (proj2 (Nat.ltb_ge f e)) by lia. rewrite (proj2 (Nat.eqb_neq f e)) by lia. cbn. rewrite FF. reflexivity.
      + subst f. rewrite Nat.ltb_irrefl, Nat.eqb_refl. cbn [orb andb]. destruct (Nat.even j) eqn:EJ.
        * rewrite (FE eq_refl). replace (j + 1) with (S j) by lia. rewrite Nat.even_succ, <- Nat.negb_even, EJ. cbn. replace (S j) with (facing j) by (rewrite (FE eq_refl); lia). rewrite FF. reflexivity.
        * specialize (FO eq_refl). replace (Nat.even (facing j)) with true; [reflexivity|]. rewrite FO in EJ. replace (facing j + 1) with (S (facing j)) in EJ by lia.
          rewrite Nat.even_succ, <- Nat.negb_even in EJ. destruct (Nat.even (facing j)); auto.
      + rewrite (proj2 (Nat.ltb_ge e f)) by lia. rewrite (proj2 (Nat.eqb_neq e f)) by lia. cbn [orb andb]. rewrite (proj2 (Nat.ltb_lt f e)) by lia. reflexivity.
  Qed.
  Lemma tn_range e j : e < N -> j < 6 -> tn e j < cnt (6 * N).
  Proof. intros He Hj. destruct (rep_ok e j He Hj) as (R1 & R2 & R3 & _). unfold tn. cbn zeta in *. apply cnt_lt; [rewrite new_code; auto|lia]. Qed.
  Lemma tn_new e j : isnew e j = true -> tn e j = cnt (6 * e + j).
  Proof. intros H. unfold tn, rep. rewrite H. reflexivity. Qed.
  Lemma cnt_surj k t : t < cnt k -> exists q, q < k /\ new_at q = true /\ cnt q = t.
  Proof.
    induction k; [cbn; lia|]. rewrite cnt_S. intros H. destruct (Nat.lt_ge_cases t (cnt k)) as [L|L].
    - destruct (IHk L) as (q & A & C & D). exists q. repeat split; auto.
    - exists k. destruct (new_at k) eqn:X; [|lia]. repeat split; auto; lia.
  Qed.
  Lemma tn_surj t : t < cnt (6 * N) -> exists e j, e < N /\ j < 6 /\ tn e j = t /\ isnew e j = true.
  Proof.
    intros H. apply cnt_surj in H as (q & A & C & D). exists (q / 6), (q mod 6).
    assert (q mod 6 < 6) by (apply Nat.mod_upper_bound; lia). assert (q / 6 < N) by (apply Nat.div_lt_upper_bound; lia).
    split; [assumption|]. split; [assumption|]. split; [|exact C]. rewrite tn_new by exact C. rewrite <- Nat.div_mod_eq. exact D.
  Qed.

  (** * the relay *)
  Section Core.
    Context (a n : nat) (ups : list epair) (local : nat -> bool).
    Hypothesis Hloc : forall e, local e = true <-> a <= e < a + n.
    Hypothesis Hrange : a + n <= N.
    Hypothesis Hself : forall e j, a <= e < a + n -> j < 6 -> B e j = El e -> on_pb ups e j e = true.
    (** the record made for side (e, j) *)
    Definition rec_at (e j : nat) : tel :=
      match B e j with
      | Bd b => mkTel (Side e j) (OnB b) (e, j) true false
      | El f => if isnew e j then mkTel (Side e j) (Side f (facing j)) (e, j) false (on_pb ups e j f)
                else mkTel (Side f (facing j)) (Side e j) (e, j) false (on_pb ups e j f)
      end.
    (** what POOL and LOCAL_POOL hold after the sides coded below k *)
    Definition pool_ok (k : nat) (po : list ((nat * nat) * nat)) : Prop := forall e j v, dget eqb2 po (e, j) = Some v <->
      e < N /\ j < 6 /\ v = tn e j /\ exists f, B e j = El f /\ f <> e /\ ((6 * e + j < k /\ k <= 6 * f + facing j) \/ (k <= 6 * e + j /\ 6 * f + facing j < k)).
    Definition lpool_ok (k : nat) (po : list ((nat * nat) * nat)) : Prop := forall e j v, dget eqb2 po (e, j) = Some v <->
      e < N /\ j < 6 /\ v = tn e j /\ B e j = El e /\ Nat.even j = false /\ 6 * e + j = k.
    Definition tels_ok (k : nat) (ts : list (nat * tel)) : Prop := NoDup (map fst ts) /\ forall t r, dget Nat.eqb ts t = Some r <->
      exists e j, a <= e < a + n /\ j < 6 /\ 6 * e + j < k /\ tn e j = t /\ (isnew e j = true \/ fst (rep e j) < a) /\ r = rec_at e j.
    Definition inv (k : nat) (st : tst) : Prop := cn st = cnt k /\ pool_ok k (pool st) /\ lpool_ok k (lpool st) /\ tels_ok k (tels st).

    (** a new trace element for a new side *)
    Lemma tels_new k ts e j : k = 6 * e + j -> a <= e < a + n -> j < 6 -> isnew e j = true -> tels_ok k ts -> tels_ok (S k) (dset Nat.eqb ts (cnt k) (rec_at e j)).
    Proof.
      intros -> He Hj HN [ND HT]. split; [apply dset_NoDup; [apply Nat.eqb_eq|exact ND]|].
      intros t r. rewrite dget_dset by apply Nat.eqb_eq. rewrite <- (tn_new e j HN). destruct (Nat.eqb_spec (tn e j) t) as [EQ|NE].
      - subst t. split.
        + intros [= <-]. exists e, j. repeat split; auto; lia.
        + intros (f & i & Hf & Hi & L & EQ & C & ->). f_equal. apply tn_eq in EQ as [[-> ->]|[EB EI]]; auto; try lia.
          destruct C as [C|C].
          * unfold isnew in C, HN. destruct (HS f i e ltac:(lia) Hi EB) as [_ EB']. rewrite <- EI in EB'. rewrite EB in C. rewrite EB' in HN.
            destruct (facing_lt i Hi) as (_ & FF & FE & FO & _). apply orb_prop in C as [C|C]; apply orb_prop in HN as [HN|HN];
              try apply Nat.ltb_lt in C; try apply Nat.ltb_lt in HN; try (apply andb_prop in C as [C C']; apply Nat.eqb_eq in C); try (apply andb_prop in HN as [HN HN']; apply Nat.eqb_eq in HN); try lia.
            subst f. exfalso. apply FE in C'. destruct (facing_lt j Hj) as (_ & _ & FE' & _). apply FE' in HN'. rewrite EI in HN'. rewrite FF in HN'. lia.
          * exfalso. unfold rep in C. destruct (isnew f i); [cbn in C; lia|]. rewrite EB in C. cbn in C. lia.
      - rewrite HT. split; intros (f & i & Hf & Hi & L & EQ & C & ->); exists f, i; repeat split; auto; try lia.
        assert (6 * f + i <> 6 * e + j); [|lia]. intros X. apply code_inj in X as [-> ->]; auto.
    Qed.
    (** nothing to add *)
    Lemma tels_skip k ts e j : k = 6 * e + j -> a <= e < a + n -> j < 6 -> isnew e j = false -> a <= fst (rep e j) -> tels_ok k ts -> tels_ok (S k) ts.
    Proof.
      intros -> He Hj HN HR [ND HT]. split; [exact ND|]. intros t r. rewrite HT.
      split; intros (f & i & Hf & Hi & L & EQ & C & ->); exists f, i; repeat split; auto; try lia.
      assert (6 * f + i <> 6 * e + j); [|lia]. intros X. apply code_inj in X as [-> ->]; auto. destruct C as [C|C]; [congruence|lia].
    Qed.
    (** a trace element that an earlier core numbered *)
    Lemma tels_other k ts e j : k = 6 * e + j -> a <= e < a + n -> j < 6 -> isnew e j = false -> fst (rep e j) < a -> tels_ok k ts -> tels_ok (S k) (dset Nat.eqb ts (tn e j) (rec_at e j)).
    Proof.
      intros -> He Hj HN HR [ND HT]. split; [apply dset_NoDup; [apply Nat.eqb_eq|exact ND]|].
      intros t r. rewrite dget_dset by apply Nat.eqb_eq. destruct (Nat.eqb_spec (tn e j) t) as [EQ|NE].
      - subst t. split.
        + intros [= <-]. exists e, j. repeat split; auto; lia.
        + intros (f & i & Hf & Hi & L & EQ & C & ->). f_equal. apply tn_eq in EQ as [[-> ->]|[EB EI]]; auto; try lia.
          exfalso. destruct (HS f i e ltac:(lia) Hi EB) as [_ EB']. rewrite <- EI in EB'. unfold rep in HR. rewrite HN, EB' in HR. cbn in HR. lia.
      - rewrite HT. split; intros (f & i & Hf & Hi & L & EQ & C & ->); exists f, i; repeat split; auto; try lia.
        assert (6 * f + i <> 6 * e + j); [|lia]. intros X. apply code_inj in X as [-> ->]; auto.
    Qed.
    Lemma new_tel_ok q1 q2 e j db pb : a <= e < a + n -> q1 = Side e j \/ q2 = Side e j -> new_tel local q1 q2 (e, j) db pb = Some (mkTel q1 q2 (e, j) db pb).
    Proof.
      intros He HQ. unfold new_tel. cbn [fst snd]. rewrite (proj2 (Hloc e) He).
      assert (R : forall x, x = Side e j -> pos_eqb x (Side e j) = true) by (intros x ->; cbn; apply eqb2_spec; reflexivity).
      destruct HQ as [-> | ->]; rewrite (R _ eq_refl); rewrite ?orb_true_r; reflexivity.
    Qed.

    Lemma pool_shift e j po : e < N -> j < 6 -> (forall f, B e j = El f -> f = e) -> pool_ok (6 * e + j) po -> pool_ok (S (6 * e + j)) po.
    Proof.
      intros He Hj HB HP e' j' v. rewrite (HP e' j' v). split; intros (H1 & H2 & H3 & f & H4 & H5 & H6); repeat split; auto; exists f; repeat split; auto;
        destruct (HS e' j' f H1 H2 H4) as [Hf EF]; destruct (facing_lt j' H2) as (L & FF & _);
        (assert (6 * e' + j' <> 6 * e + j) by (intros X; apply code_inj in X as [-> ->]; auto));
        (assert (6 * f + facing j' <> 6 * e + j) by (intros X; apply code_inj in X as [-> X]; auto; rewrite X in EF; apply HB in EF; congruence)); lia.
    Qed.
    Lemma lpool_shift e j po : e < N -> j < 6 -> B e j <> El e -> lpool_ok (6 * e + j) po -> lpool_ok (S (6 * e + j)) po.
    Proof.
      intros He Hj HB HP e' j' v. rewrite (HP e' j' v). split; intros (H1 & H2 & H3 & H4 & H5 & H6); exfalso.
      - apply code_inj in H6 as [-> ->]; auto.
      - destruct (facing_lt j' H2) as (L & FF & _ & FO & _). specialize (FO H5). assert (e' = e /\ facing j' = j) as [-> X] by lia.
        destruct (HS e j' e H1 H2 H4) as [_ Y]. rewrite X in Y. auto.
    Qed.
    Lemma eqb2_neq a' b' : a' <> b' -> eqb2 a' b' = false.
    Proof. apply eqb_neq. apply eqb2_spec. Qed.
    (** one side *)
    Lemma one_side_ok e j st : a <= e < a + n -> j < 6 -> inv (6 * e + j) st ->
      exists st', one_side local ups e (Some st) (j, B e j) = Some st' /\ inv (S (6 * e + j)) st' /\ trow st' = trow st ++ [tn e j].
    Proof.
      intros He Hj (HC & HP & HL & HT). unfold one_side. set (k := 6 * e + j) in *. pose proof (new_code e j Hj) as NC. fold k in NC. rewrite (opp_facing j Hj).
      assert (He' : e < N) by lia. destruct (facing_lt j Hj) as (FL & FF & FE & FO & _).
      destruct (B e j) as [w|b] eqn:EB.
      - destruct (HS e j w He' Hj EB) as [Hw EW].
        destruct (Nat.ltb_spec e w) as [L|L]; [|destruct (Nat.eqb_spec w e) as [->|NE]].
        + (* a later element *)
          assert (NEW : isnew e j = true) by (unfold isnew; rewrite EB; apply orb_true_intro; left; apply Nat.ltb_lt; lia).
          rewrite new_tel_ok by auto. eexists. split; [reflexivity|]. cbn [trow]. rewrite (tn_new e j NEW). fold k. rewrite HC. split; [|reflexivity].
          unfold inv. cbn [cn pool lpool tels]. refine (conj _ (conj _ (conj _ _))).
          * rewrite cnt_S, NC, NEW. reflexivity.
          * intros e' j' v. rewrite !dget_dset by apply eqb2_spec. destruct (eqb2 (w, facing j) (e', j')) eqn:E1; [|destruct (eqb2 (e, j) (e', j')) eqn:E2].
            -- apply eqb2_spec in E1. injection E1 as <- <-. assert (T : tn w (facing j) = cnt k).
               { unfold k. rewrite <- (tn_new e j NEW). apply tn_eq; auto. }
               rewrite FF. split; [intros [= <-]|intros (_ & _ & -> & _); congruence]. repeat split; auto. exists e. repeat split; auto; lia.
            -- apply eqb2_spec in E2. injection E2 as <- <-. split; [intros [= <-]|intros (_ & _ & -> & _); rewrite (tn_new e j NEW); reflexivity].
               repeat split; auto; [rewrite (tn_new e j NEW); reflexivity|]. exists w. repeat split; auto; lia.
            -- rewrite (HP e' j' v). split; intros (H1 & H2 & H3 & f & H4 & H5 & H6); repeat split; auto; exists f; repeat split; auto;
                 destruct (HS e' j' f H1 H2 H4) as [Hf EF]; destruct (facing_lt j' H2) as (L' & FF' & _);
                 (assert (6 * e' + j' <> k) by (intros X; apply code_inj in X as [-> ->]; auto; rewrite (proj2 (eqb2_spec _ _) eq_refl) in E2; discriminate));
                 (assert (6 * f + facing j' <> k) by (intros X; apply code_inj in X as [-> X]; auto; rewrite X in EF; rewrite EB in EF; injection EF as <-; rewrite <- X, FF', (proj2 (eqb2_spec _ _) eq_refl) in E1; discriminate)); lia.
          * apply lpool_shift; auto. rewrite EB. intros [= ->]. lia.
          * replace (mkTel _ _ _ _ _) with (rec_at e j) by (unfold rec_at; rewrite EB, NEW; reflexivity). apply (tels_new k); auto.
        + (* the element itself *)
          rewrite (Hself e j He Hj EB). destruct (Nat.even j) eqn:EV.
          * assert (NEW : isnew e j = true) by (unfold isnew; rewrite EB, EV, Nat.eqb_refl; apply orb_true_r).
            rewrite new_tel_ok by auto. eexists. split; [reflexivity|]. cbn [trow]. rewrite (tn_new e j NEW). fold k. rewrite HC. split; [|reflexivity].
            unfold inv. cbn [cn pool lpool tels]. refine (conj _ (conj _ (conj _ _))).
            -- rewrite cnt_S, NC, NEW. reflexivity.
            -- apply pool_shift; auto. rewrite EB. intros f [= ->]. reflexivity.
            -- assert (T : tn e (facing j) = cnt k) by (unfold k; rewrite <- (tn_new e j NEW); apply tn_eq; auto).
               specialize (FE eq_refl). assert (EVF : Nat.even (facing j) = false) by (rewrite FE; replace (j + 1) with (S j) by lia; rewrite Nat.even_succ, <- Nat.negb_even, EV; reflexivity).
               intros e' j' v. rewrite dget_dset by apply eqb2_spec. destruct (eqb2 (e, facing j) (e', j')) eqn:E1.
               ++ apply eqb2_spec in E1. injection E1 as <- <-. split; [intros [= <-]|intros (_ & _ & -> & _); congruence]. repeat split; auto. unfold k. lia.
               ++ rewrite (HL e' j' v). split; intros (H1 & H2 & H3 & H4 & H5 & H6); exfalso.
                  ** apply code_inj in H6 as [-> ->]; auto. congruence.
                  ** assert (e' = e /\ j' = facing j) as [-> ->]; [|rewrite (proj2 (eqb2_spec _ _) eq_refl) in E1; discriminate].
                     unfold k in H6. rewrite FE. apply code_inj; lia.
            -- replace (mkTel _ _ _ _ _) with (rec_at e j) by (unfold rec_at; rewrite EB, NEW, (Hself e j He Hj EB); reflexivity). apply (tels_new k); auto.
          * assert (NEW : isnew e j = false) by (unfold isnew; rewrite EB, EV, Nat.ltb_irrefl, andb_false_r; reflexivity).
            rewrite (proj2 (HL e j (tn e j))) by (repeat split; auto). eexists. split; [reflexivity|]. cbn [trow]. split; [|reflexivity].
            unfold inv. cbn [cn pool lpool tels]. refine (conj _ (conj _ (conj _ _))).
            -- rewrite cnt_S, NC, NEW. lia.
            -- apply pool_shift; auto. rewrite EB. intros f [= ->]. reflexivity.
            -- intros e' j' v. rewrite dget_ddel by apply eqb2_spec. split.
               ++ destruct (eqb2 (e, j) (e', j')) eqn:E1; [discriminate|]. intros H. apply HL in H as (H1 & H2 & H3 & H4 & H5 & H6). exfalso.
                  apply code_inj in H6 as [-> ->]; auto. rewrite (proj2 (eqb2_spec _ _) eq_refl) in E1. discriminate.
               ++ intros (H1 & H2 & H3 & H4 & H5 & H6). exfalso. destruct (facing_lt j' H2) as (L' & FF' & _ & FO' & _). specialize (FO' H5). unfold k in H6.
                  assert (e' = e /\ facing j' = j) as [-> X] by lia. subst j. rewrite FF' in *. specialize (FO eq_refl). lia.
            -- apply (tels_skip k (tels st) e j); auto. unfold rep. rewrite NEW, EB. cbn. lia.
        + (* an earlier element *)
          assert (NEW : isnew e j = false).
          { unfold isnew. rewrite EB. rewrite (proj2 (Nat.ltb_ge e w)) by lia. rewrite (proj2 (Nat.eqb_neq e w)) by lia. reflexivity. }
          assert (T : tn w (facing j) = tn e j) by (symmetry; apply tn_eq; auto).
          rewrite (proj2 (HP e j (tn e j))); [|repeat split; auto; exists w; repeat split; auto; lia].
          rewrite (proj2 (HP w (facing j) (tn e j))); [|repeat split; auto; exists e; rewrite FF; repeat split; auto; lia].
          rewrite Nat.eqb_refl.
          assert (PO : pool_ok (S k) (ddel eqb2 (ddel eqb2 (pool st) (e, j)) (w, facing j))).
          { intros e' j' v. rewrite !dget_ddel by apply eqb2_spec. destruct (eqb2 (w, facing j) (e', j')) eqn:E1; [|destruct (eqb2 (e, j) (e', j')) eqn:E2].
            - apply eqb2_spec in E1. injection E1 as <- <-. split; [discriminate|]. intros (H1 & H2 & H3 & f & H4 & H5 & H6). rewrite EW in H4. injection H4 as <-. rewrite FF in H6. lia.
            - apply eqb2_spec in E2. injection E2 as <- <-. split; [discriminate|]. intros (H1 & H2 & H3 & f & H4 & H5 & H6). rewrite EB in H4. injection H4 as <-. lia.
            - rewrite (HP e' j' v). split; intros (H1 & H2 & H3 & f & H4 & H5 & H6); repeat split; auto; exists f; repeat split; auto;
                 destruct (HS e' j' f H1 H2 H4) as [Hf EF]; destruct (facing_lt j' H2) as (L' & FF' & _);
                 (assert (6 * e' + j' <> k) by (intros X; apply code_inj in X as [-> ->]; auto; rewrite (proj2 (eqb2_spec _ _) eq_refl) in E2; discriminate));
                 (assert (6 * f + facing j' <> k) by (intros X; apply code_inj in X as [-> X]; auto; rewrite X in EF; rewrite EB in EF; injection EF as <-; rewrite <- X, FF', (proj2 (eqb2_spec _ _) eq_refl) in E1; discriminate)); lia. }
          assert (LP : lpool_ok (S k) (lpool st)) by (apply lpool_shift; auto; rewrite EB; intros [= ->]; lia).
          assert (CN : cn st = cnt (S k)) by (rewrite cnt_S, NC, NEW; lia).
          assert (RP : rep e j = (w, facing j)) by (unfold rep; rewrite NEW, EB; reflexivity).
          destruct (dget Nat.eqb (tels st) (tn e j)) as [r|] eqn:ET.
          * eexists. split; [reflexivity|]. cbn [trow]. split; [|reflexivity]. unfold inv. cbn [cn pool lpool tels]. refine (conj _ (conj _ (conj _ _))); auto.
            apply (tels_skip k (tels st) e j); auto. rewrite RP. cbn.
            destruct HT as [_ HT]. apply HT in ET as (f & i & Hf & Hi & Lk & EQ & C & _). apply tn_eq in EQ as [[-> ->]|[EB' EI]]; auto; try lia.
            destruct (HS f i e ltac:(lia) Hi EB') as [_ X]. rewrite <- EI, EB in X. injection X as ->. lia.
          * rewrite new_tel_ok by auto. eexists. split; [reflexivity|]. cbn [trow]. split; [|reflexivity]. unfold inv. cbn [cn pool lpool tels]. refine (conj _ (conj _ (conj _ _))); auto.
            replace (mkTel _ _ _ _ _) with (rec_at e j) by (unfold rec_at; rewrite EB, NEW; reflexivity). apply (tels_other k); auto.
            rewrite RP. cbn. destruct (Nat.lt_ge_cases w a) as [X|X]; [exact X|]. exfalso.
            assert (Y : dget Nat.eqb (tels st) (tn e j) = Some (rec_at w (facing j))); [|congruence].
            apply HT. exists w, (facing j). repeat split; auto; try lia. left. unfold isnew. rewrite EW. apply orb_true_intro. left. apply Nat.ltb_lt. lia.
      - assert (NEW : isnew e j = true) by (unfold isnew; rewrite EB; reflexivity).
        rewrite new_tel_ok by auto. eexists. split; [reflexivity|]. cbn [trow]. rewrite (tn_new e j NEW). fold k. rewrite HC. split; [|reflexivity].
        unfold inv. cbn [cn pool lpool tels]. refine (conj _ (conj _ (conj _ _))).
        + rewrite cnt_S, NC, NEW. reflexivity.
        + apply pool_shift; auto. rewrite EB. discriminate.
        + apply lpool_shift; auto. rewrite EB. discriminate.
        + replace (mkTel _ _ _ _ _) with (rec_at e j) by (unfold rec_at; rewrite EB; reflexivity). apply (tels_new k); auto.
    Qed.
    Lemma sides_ok e : a <= e < a + n -> forall m j st, j + m <= 6 -> inv (6 * e + j) st ->
      exists st', fold_left (one_side local ups e) (map (fun j => (j, B e j)) (seq j m)) (Some st) = Some st' /\ inv (6 * e + (j + m)) st' /\ trow st' = trow st ++ map (tn e) (seq j m).
    Proof.
      intros He. induction m as [|m IH]; intros j st Hm HI.
      - exists st. cbn [seq map fold_left]. rewrite !Nat.add_0_r, app_nil_r. auto.
      - cbn [seq map fold_left]. destruct (one_side_ok e j st He ltac:(lia) HI) as (st1 & E1 & I1 & R1). rewrite E1.
        destruct (IH (S j) st1 ltac:(lia)) as (st2 & E2 & I2 & R2); [replace (6 * e + S j) with (S (6 * e + j)) by lia; exact I1|].
        exists st2. split; [exact E2|]. split; [replace (j + S m) with (S j + m) by lia; exact I2|]. rewrite R2, R1, <- app_assoc. reflexivity.
    Qed.
    Definition brows (a n : nat) : emap := map (fun e => (e, map (B e) (seq 0 6))) (seq a n).
    Definition trows (a n : nat) : list (nat * list nat) := map (fun e => (e, map (tn e) (seq 0 6))) (seq a n).
    Lemma combine_map {X Y} (f : X -> Y) l : combine l (map f l) = map (fun x => (x, f x)) l.
    Proof. induction l; cbn; congruence. Qed.
    Lemma elements_ok : forall m e st mp, a <= e -> e + m <= a + n -> inv (6 * e) st ->
      exists st', fold_left (one_element local ups) (brows e m) (Some (st, mp)) = Some (st', mp ++ trows e m) /\ inv (6 * (e + m)) st'.
    Proof.
      induction m as [|m IH]; intros e st mp H1 H2 HI.
      - exists st. unfold brows, trows. cbn [seq map fold_left]. rewrite app_nil_r, Nat.add_0_r. auto.
      - change (brows e (S m)) with ((e, map (B e) (seq 0 6)) :: brows (S e) m). change (trows e (S m)) with ((e, map (tn e) (seq 0 6)) :: trows (S e) m). cbn [fold_left]. unfold one_element at 2. cbn [fst snd].
        rewrite combine_map. destruct (sides_ok e ltac:(lia) 6 0 (mkTst (cn st) (pool st) (lpool st) (tels st) []) ltac:(lia)) as (st1 & E1 & I1 & R1).
        { rewrite Nat.add_0_r. exact HI. }
        rewrite E1. destruct (IH (S e) st1 (mp ++ [(e, trow st1)])) as (st2 & E2 & I2); [lia|lia|replace (6 * S e) with (6 * e + (0 + 6)) by lia; exact I1|].
        exists st2. rewrite E2. cbn [app trow] in R1. rewrite R1, <- app_assoc. split; [reflexivity|].
        replace (e + S m) with (S e + m) by lia. exact I2.
    Qed.
  End Core.
  Inductive cut : nat -> list (emap * list epair) -> nat -> Prop :=
  | cut_nil a : cut a [] a
  | cut_cons a n up cs b : (forall e j, a <= e < a + n -> j < 6 -> B e j = El e -> on_pb up e j e = true) -> cut (a + n) cs b -> cut a ((brows a n, up) :: cs) b.
  (** the result of the cores *)
  Inductive cutres : nat -> list (emap * list epair) -> list (list (nat * tel) * list (nat * list nat)) -> Prop :=
  | cutres_nil a : cutres a [] []
  | cutres_cons a n up cs ts outs : tels_ok a n up (6 * (a + n)) ts -> cutres (a + n) cs outs -> cutres a ((brows a n, up) :: cs) ((ts, trows a n) :: outs).
  Lemma cut_le a cs b : cut a cs b -> a <= b.
  Proof. induction 1; lia. Qed.
  Lemma brows_keys a n : map fst (brows a n) = seq a n.
  Proof. unfold brows. rewrite map_map. cbn [fst]. apply map_id. Qed.
  Lemma mem_seq e a n : mem e (seq a n) = true <-> a <= e < a + n.
  Proof. unfold mem. rewrite existsb_exists. split; [intros (x & H & E); apply Nat.eqb_eq in E; subst; apply in_seq; exact H|]. intros H. exists e. split; [apply in_seq; exact H|apply Nat.eqb_refl]. Qed.
  Lemma cores_ok : forall cs a out po, cut a cs N -> pool_ok (6 * a) po ->
    exists po' outs, fold_left one_core cs (Some (cnt (6 * a), po, out)) = Some (cnt (6 * N), po', out ++ outs) /\ pool_ok (6 * N) po' /\ cutres a cs outs.
  Proof.
    induction cs as [|[m up] cs IH]; intros a out po HC HP; inversion HC; subst.
    - exists po, []. cbn [fold_left]. rewrite app_nil_r. split; [reflexivity|]. split; [exact HP|constructor].
    - cbn [fold_left]. unfold one_core at 2. cbn [fst snd]. pose proof (cut_le _ _ _ H5) as HL. rewrite brows_keys.
      destruct (elements_ok a n up (fun e => mem e (seq a n)) (fun e => mem_seq e a n) HL H4 n a (mkTst (cnt (6 * a)) po [] [] []) [] ltac:(lia) ltac:(lia)) as (st & E & (I1 & I2 & I3 & I4)).
      { refine (conj _ (conj _ (conj _ _))); cbn [cn pool lpool tels]; auto.
        - intros e j v. split; [discriminate|]. intros (H1 & H2 & _ & _ & H6 & H7). assert (j = 0) by lia. subst j. discriminate.
        - split; [constructor|]. intros t r. split; [discriminate|]. intros (e & j & G1 & G2 & G3 & _). lia. }
      rewrite E. rewrite I1. destruct (IH (a + n) (out ++ [(tels st, trows a n)]) (pool st) H5 I2) as (po' & outs & E' & P' & R').
      exists po', ((tels st, trows a n) :: outs). split; [cbn [app]; rewrite E', <- app_assoc; reflexivity|]. split; [exact P'|]. constructor; auto.
  Qed.
  Theorem trace_ok cs : cut 0 cs N -> exists outs, trace_elements cs = Some (outs, cnt (6 * N)) /\ cutres 0 cs outs.
  Proof.
    intros H. destruct (cores_ok cs 0 [] [] H) as (po & outs & E & P & R).
    { intros e j v. split; [discriminate|]. intros (_ & _ & _ & f & _ & _ & X). lia. }
    exists outs. split; [|exact R]. unfold trace_elements. change 0 with (cnt (6 * 0)) at 1. rewrite E. cbn [app].
    enough (po = []) as -> by reflexivity. apply (dget_empty eqb2 eqb2_spec). intros [e j]. destruct (dget eqb2 po (e, j)) as [v|] eqn:G; [|reflexivity].
    apply P in G as (H1 & H2 & _ & f & H4 & _ & H6). destruct (HS e j f H1 H2 H4) as [Hf _]. destruct (facing_lt j H2). lia.
  Qed.
End Num.
