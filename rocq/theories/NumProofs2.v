(** Proofs about NumModel: the numbering process. *)
From Coq Require Import List Arith Bool Lia Relations.
From Verif Require Import Prelude PreludeProofs SpaceModel SpaceSpec SpaceProofs MeshModel MeshMapModel MeshMapProofs MeshMapProofs2 TraceModel TraceProofs TraceProofs2 TraceProofs3 NumModel NumSpec NumProofs.
Import ListNotations.

Lemma dget_mapv {K V W} (eqb : K -> K -> bool) (E : forall a b, eqb a b = true <-> a = b) (g : K -> V -> W) d q : dget eqb (map (fun cv => (fst cv, g (fst cv) (snd cv))) d) q = option_map (g q) (dget eqb d q).
Proof.
  induction d as [|[a v] d IH]; [reflexivity|]. unfold dget in *. cbn [map lookup fst snd]. destruct (eqb q a) eqn:X; [|exact IH]. apply E in X. subst. reflexivity.
Qed.
(** ** fill *)
Lemma fill_fst a : forall n, map fst (snd (fill n a)) = map fst a.
Proof. induction a as [|[c [v|]] a IH]; intros n; cbn [fill map fst snd]; [reflexivity| |]; rewrite IH; reflexivity. Qed.
Lemma fill_le a : forall n, n <= fst (fill n a).
Proof. induction a as [|[c [v|]] a IH]; intros n; cbn [fill fst]; [lia|apply IH|]. specialize (IH (n + 1)). lia. Qed.
Lemma fill_some a q v : forall n, In (q, Some v) a -> In (q, Some v) (snd (fill n a)).
Proof. induction a as [|[c [w|]] a IH]; intros n; cbn [fill snd]; [intros []| |]; (intros [E|H]; [first [injection E as <- <-; now left|discriminate]|right; apply IH; exact H]). Qed.
Lemma fill_none a q : forall n, In (q, None) a -> exists v, In (q, Some v) (snd (fill n a)) /\ n <= v < fst (fill n a).
Proof.
  induction a as [|[c [w|]] a IH]; intros n; cbn [fill snd fst]; [intros []| |].
  - intros [E|H]; [discriminate|]. destruct (IH n H) as (v & A & B). exists v. split; [right; exact A|exact B].
  - intros [E|H]; [injection E as <-|].
    + exists n. split; [now left|]. assert (X := fill_le a (n + 1)). lia.
    + destruct (IH (n + 1) H) as (v & A & B). exists v. split; [right; exact A|lia].
Qed.
Lemma fill_onto a v : forall n, n <= v < fst (fill n a) -> exists q, In (q, None) a /\ In (q, Some v) (snd (fill n a)).
Proof.
  induction a as [|[c [w|]] a IH]; intros n; cbn [fill snd fst]; [lia| |].
  - intros H. destruct (IH n H) as (q & A & B). exists q. split; now right.
  - intros H. destruct (Nat.eq_dec v n) as [->|Nv]; [exists c; split; now left|]. destruct (IH (n + 1) ltac:(lia)) as (q & A & B). exists q. split; now right.
Qed.
Lemma fill_inj a q q' v : forall n, NoDup (map fst a) -> In (q, None) a -> In (q', None) a -> In (q, Some v) (snd (fill n a)) -> In (q', Some v) (snd (fill n a)) -> q = q'.
Proof.
  assert (K : forall a n q v, NoDup (map fst a) -> In (q, None) a -> In (q, Some v) (snd (fill n a)) -> n <= v).
  { clear. intros a n q v ND H A. destruct (fill_none a q n H) as (w & B & C). assert (X : Some v = Some w).
    { assert (ND' : NoDup (map fst (snd (fill n a)))) by (rewrite fill_fst; exact ND).
      apply (dget_In cell_eqb nat_cell_eqb) in A; [|exact ND']. apply (dget_In cell_eqb nat_cell_eqb) in B; [|exact ND']. congruence. }
    injection X as ->. lia. }
  induction a as [|[c [w|]] a IH]; intros n ND; cbn [fill snd fst map] in *; [intros []| |]; inversion ND as [|? ? Nc ND']; subst.
  - intros [E|H] [E'|H'] A B; try discriminate. destruct A as [A|A]; [exfalso; injection A as -> _; apply Nc; exact (in_map fst _ _ H)|].
    destruct B as [B|B]; [exfalso; injection B as -> _; apply Nc; exact (in_map fst _ _ H')|]. apply (IH n); auto.
  - intros H H' A B.
    assert (Z : forall q, (c, @None nat) = (q, None) \/ In (q, None) a -> (c, Some n) = (q, Some v) \/ In (q, Some v) (snd (fill (n + 1) a)) -> (q = c /\ v = n) \/ (In (q, None) a /\ In (q, Some v) (snd (fill (n + 1) a)) /\ n + 1 <= v)).
    { intros r [E|Hr] [E'|Ar].
      - injection E' as <- <-. auto.
      - injection E as <-. exfalso. apply Nc. rewrite <- (fill_fst a (n + 1)). exact (in_map fst _ _ Ar).
      - injection E' as <- <-. exfalso. apply Nc. exact (in_map fst _ _ Hr).
      - right. refine (conj Hr (conj Ar _)). eapply K; eassumption. }
    destruct (Z q H A) as [[-> E1]|(A1 & A2 & A3)], (Z q' H' B) as [[-> E2]|(B1 & B2 & B3)]; try lia; auto. apply (IH (n + 1)); auto.
Qed.
(** ** passing over a side *)
Lemma pass_side_eq k p from j to : pass_side k p from j to =
  map (fun cv => (fst cv, match src k p j (fst cv) with Some q0 => match dget cell_eqb from q0 with Some w => w | None => None end | None => snd cv end)) to.
Proof.
  unfold pass_side. apply map_ext. intros [[c i] v]. unfold src. cbn [fst snd].
  destruct (mem c (passed k (length p) (j / 2)) && (nth (j / 2) i 0 =? end_of (shapes_of k p) c (j / 2) (negb (Nat.odd j)))); reflexivity.
Qed.
Lemma pass_side_get k p from j to q : dget cell_eqb (pass_side k p from j to) q =
  option_map (fun v => match src k p j q with Some q0 => match dget cell_eqb from q0 with Some w => w | None => None end | None => v end) (dget cell_eqb to q).
Proof.
  rewrite pass_side_eq.
  exact (dget_mapv cell_eqb nat_cell_eqb (fun c v => match src k p j c with Some q0 => match dget cell_eqb from q0 with Some w => w | None => None end | None => v end) to q).
Qed.
Lemma pass_side_fst k p from j to : map fst (pass_side k p from j to) = map fst to.
Proof. rewrite pass_side_eq, map_map. reflexivity. Qed.
Lemma dget_some_key (a : farr) q : In q (map fst a) -> exists v, dget cell_eqb a q = Some v.
Proof. intros H. apply (dget_keys cell_eqb nat_cell_eqb) in H. exact H. Qed.

Section Process.
  Variables (k : nform) (p : list nat) (ms : list emap) (N : nat).
  Let L := concat ms.
  Hypothesis HL : map fst L = seq 0 N.
  Hypothesis HR : forall e row, In (e, row) L -> length row = 2 * length p.
  Let C := cellsC (shapes_of k p).
  Let V := place k p.
  Definition nbj (e j f : nat) : Prop := exists row, In (e, row) L /\ nth_error row j = Some (El f).
  Definition Gm (a b : nat * NumModel.cell) : Prop := exists j, nbj (fst a) j (fst b) /\ src k p j (snd b) = Some (snd a).

  (** what the arrays of later elements hold, [P]: the passes done *)
  Definition held (P : nat -> nat -> nat -> Prop) (num : nat -> NumModel.cell -> nat) (b : farr) (f : nat) : Prop :=
    map fst b = C /\ forall q, V q ->
      (dget cell_eqb b q = Some None /\ forall e j q0, P e j f -> src k p j q <> Some q0) \/
      (exists v e j q0, dget cell_eqb b q = Some (Some v) /\ P e j f /\ V q0 /\ src k p j q = Some q0 /\ v = num e q0).
  Definition full (a : farr) (g : NumModel.cell -> nat) : Prop := map fst a = C /\ forall q, V q -> dget cell_eqb a q = Some (Some (g q)).
  Definition ahead (P : nat -> nat -> nat -> Prop) (num : nat -> NumModel.cell -> nat) (k0 : nat) (ca : list (nat * farr)) : Prop :=
    forall f, k0 <= f -> match dget Nat.eqb ca f with
                         | Some b => (exists e j, P e j f) /\ held P num b f
                         | None => forall e j, ~ P e j f
                         end.
  Lemma held_ext P P' num b f : (forall e j, P e j f <-> P' e j f) -> held P num b f -> held P' num b f.
  Proof.
    intros H [A B]. split; [exact A|]. intros q Hq. destruct (B q Hq) as [[X Y]|(v & e & j & q0 & X1 & X2 & X3 & X4 & X5)].
    - left. split; [exact X|]. intros e j q0 HP. apply (Y e j q0). apply H. exact HP.
    - right. exists v, e, j, q0. refine (conj X1 (conj _ (conj X3 (conj X4 X5)))). apply H. exact X2.
  Qed.
  Lemma blank_held P num f : (forall e j, ~ P e j f) -> held P num (blank (shapes_of k p)) f.
  Proof.
    intros H. split; [unfold blank; rewrite map_map; apply map_id|]. intros q Hq. left. split.
    - apply (dget_In cell_eqb nat_cell_eqb).
      + unfold blank. rewrite map_map. cbn [fst]. rewrite map_id. apply NoDup_cellsC.
      + unfold blank. apply in_map_iff. exists q. auto.
    - intros e j q0 HP. exfalso. exact (H e j HP).
  Qed.
  Lemma held_pass P num b f e a j : j / 2 < length p -> full a (num e) -> held P num b f ->
    held (fun e' j' f' => P e' j' f' \/ (e' = e /\ j' = j /\ f' = f)) num (pass_side k p a j b) f.
  Proof.
    intros Hj [A1 A2] [B1 B2]. split; [rewrite pass_side_fst; exact B1|]. intros q Hq. rewrite pass_side_get.
    destruct (src k p j q) as [q0|] eqn:E.
    - right. assert (V0 : V q0) by (apply (src_spec k p j q q0 Hj Hq) in E; apply E). exists (num e q0), e, j, q0.
      destruct (dget_some_key b q) as [v Ev]; [rewrite B1; exact Hq|]. rewrite Ev. cbn [option_map]. rewrite (A2 q0 V0).
      refine (conj eq_refl (conj _ (conj V0 (conj E eq_refl)))). right. auto.
    - destruct (B2 q Hq) as [[X Y]|(v & e' & j' & q0 & X1 & X2 & X3 & X4 & X5)].
      + left. rewrite X. split; [reflexivity|]. intros e' j' q0 [HP|(-> & -> & _)]; [apply (Y e' j' q0 HP)|congruence].
      + right. exists v, e', j', q0. rewrite X1. refine (conj eq_refl (conj _ (conj X3 (conj X4 X5)))). left. exact X2.
  Qed.
  (** one neighbour *)
  Lemma one_step P num e a ca j w : j / 2 < length p -> dget Nat.eqb ca e = Some a -> full a (num e) -> ahead P num (S e) ca ->
    exists ca', one_neighbour k p e (Some ca) (j, w) = Some ca' /\ (forall f, f <= e -> dget Nat.eqb ca' f = dget Nat.eqb ca f) /\
      ahead (fun e' j' f' => P e' j' f' \/ (e' = e /\ j' = j /\ w = El f')) num (S e) ca'.
  Proof.
    intros Hj Ha Fa HA. unfold one_neighbour. cbn [fst snd]. destruct w as [f|b].
    2: { exists ca. refine (conj eq_refl (conj (fun _ _ => eq_refl) _)). intros f Hf. specialize (HA f Hf). destruct (dget Nat.eqb ca f) as [b'|].
         - destruct HA as [(e' & j' & HP) H]. split; [exists e', j'; now left|]. eapply held_ext; [|exact H]. intros. split; [now left|intros [X|(_ & _ & [=])]; exact X].
         - intros e' j' [X|(_ & _ & [=])]. exact (HA e' j' X). }
    destruct (Nat.ltb_spec e f) as [Lt|Ge].
    - set (ca1 := match dget Nat.eqb ca f with Some _ => ca | None => dset Nat.eqb ca f (blank (shapes_of k p)) end).
      assert (K1 : exists b, dget Nat.eqb ca1 f = Some b /\ held P num b f).
      { unfold ca1. specialize (HA f Lt). destruct (dget Nat.eqb ca f) as [b|] eqn:Ef; [exists b; split; [exact Ef|apply HA]|].
        exists (blank (shapes_of k p)). rewrite (dget_dset _ Nat.eqb_eq), Nat.eqb_refl. split; [reflexivity|]. apply blank_held. exact HA. }
      assert (K2 : forall g, g <> f -> dget Nat.eqb ca1 g = dget Nat.eqb ca g).
      { intros g Ng. unfold ca1. destruct (dget Nat.eqb ca f); [reflexivity|]. rewrite (dget_dset _ Nat.eqb_eq). destruct (Nat.eqb_spec f g); [congruence|reflexivity]. }
      destruct K1 as (b & Eb & Hb). rewrite K2 by lia. rewrite Ha, Eb. eexists. split; [reflexivity|]. split.
      + intros g Hg. rewrite (dget_dset _ Nat.eqb_eq). destruct (Nat.eqb_spec f g); [lia|]. apply K2. congruence.
      + intros g Hg. rewrite (dget_dset _ Nat.eqb_eq). destruct (Nat.eqb_spec f g) as [<-|Ng].
        * split; [exists e, j; right; auto|]. eapply held_ext; [|apply held_pass; [exact Hj|exact Fa|exact Hb]]. intros e' j'. cbn beta. split; (intros [X|(X1 & X2 & X3)]; [now left|right; auto]).
        * rewrite K2 by congruence. specialize (HA g Hg). destruct (dget Nat.eqb ca g) as [b'|].
          -- destruct HA as [(e' & j' & HP) H]. split; [exists e', j'; now left|]. eapply held_ext; [|exact H]. intros e2 j2. split; [now left|intros [X|(_ & _ & [= X])]; [exact X|congruence]].
          -- intros e' j' [X|(_ & _ & [= X])]; [exact (HA e' j' X)|congruence].
    - exists ca. split; [destruct (dget Nat.eqb ca f); reflexivity|]. split; [reflexivity|]. intros g Hg. specialize (HA g Hg). destruct (dget Nat.eqb ca g) as [b'|].
      + destruct HA as [(e' & j' & HP) H]. split; [exists e', j'; now left|]. eapply held_ext; [|exact H]. intros e2 j2. split; [now left|intros [X|(_ & _ & [= X])]; [exact X|lia]].
      + intros e' j' [X|(_ & _ & [= X])]; [exact (HA e' j' X)|lia].
  Qed.
  Lemma ahead_ext P P' num k0 ca : (forall e j f, P e j f <-> P' e j f) -> ahead P num k0 ca -> ahead P' num k0 ca.
  Proof.
    intros H HA f Hf. specialize (HA f Hf). destruct (dget Nat.eqb ca f) as [b|].
    - destruct HA as [(e & j & HP) HH]. split; [exists e, j; apply H; exact HP|]. eapply held_ext; [|exact HH]. intros. apply H.
    - intros e j HP. apply H in HP. exact (HA e j HP).
  Qed.
  Lemma all_steps num e a : forall js P ca, (forall j w, In (j, w) js -> j / 2 < length p) -> dget Nat.eqb ca e = Some a -> full a (num e) -> ahead P num (S e) ca ->
    exists ca', fold_left (one_neighbour k p e) js (Some ca) = Some ca' /\ (forall f, f <= e -> dget Nat.eqb ca' f = dget Nat.eqb ca f) /\
      ahead (fun e' j' f' => P e' j' f' \/ (e' = e /\ In (j', El f') js)) num (S e) ca'.
  Proof.
    induction js as [|[j w] js IH]; intros P ca Hj Ha Fa HA.
    - exists ca. refine (conj eq_refl (conj (fun _ _ => eq_refl) _)). eapply ahead_ext; [|exact HA]. intros. cbn [In]. tauto.
    - destruct (one_step P num e a ca j w (Hj j w (or_introl eq_refl)) Ha Fa HA) as (ca1 & E1 & K1 & HA1). cbn [fold_left]. rewrite E1.
      destruct (IH _ ca1 (fun j' w' H => Hj j' w' (or_intror H)) ltac:(rewrite K1 by lia; exact Ha) Fa HA1) as (ca2 & E2 & K2 & HA2).
      exists ca2. split; [exact E2|]. split; [intros f Hf; rewrite K2 by exact Hf; apply K1; exact Hf|]. eapply ahead_ext; [|exact HA2].
      intros e' j' f'. cbn [In]. split.
      + intros [[X|(-> & -> & ->)]|(-> & X)]; auto.
      + intros [X|(-> & [[= -> ->]|X])]; auto.
  Qed.
  Lemma in_row e row j w : In (e, row) L -> (In (j, w) (combine (seq 0 (length row)) row) <-> nth_error row j = Some w).
  Proof. intros _. apply in_combine_seq. Qed.
  Lemma L_nth e row : In (e, row) L <-> nth_error L e = Some (e, row).
  Proof.
    split; [|apply nth_error_In]. intros H. apply In_nth_error in H. destruct H as [n Hn]. assert (X := map_nth_error fst _ _ Hn). rewrite HL in X. cbn [fst] in X.
    assert (n < N) by (rewrite <- (seq_length N 0); apply nth_error_Some; congruence). rewrite nth_error_seq_lt in X by assumption. injection X as ->. exact Hn.
  Qed.
  Lemma row_fun e row row' : In (e, row) L -> In (e, row') L -> row = row'.
  Proof. rewrite !L_nth. congruence. Qed.

  (** the invariant after the elements below k0 *)
  Definition ranges (k0 n : nat) (num : nat -> NumModel.cell -> nat) : Prop := forall v, v < n <-> exists e q, e < k0 /\ V q /\ num e q = v.
  Definition inv (k0 n : nat) (ca : list (nat * farr)) (num : nat -> NumModel.cell -> nat) (own : list nat) : Prop :=
    ahead (fun e j f => e < k0 /\ nbj e j f) num k0 ca /\ stepwise V Gm num k0 /\ ranges k0 n num /\
    forall e, In e own -> e < k0 /\ exists a, dget Nat.eqb ca e = Some a /\ full a (num e).
  Definition reach (k0 : nat) : Prop := forall e, 0 < e < k0 -> exists f j, f < e /\ nbj f j e.
  Definition renum (num : nat -> NumModel.cell -> nat) (e : nat) (g : NumModel.cell -> nat) : nat -> NumModel.cell -> nat := fun e' => if e' =? e then g else num e'.
  Lemma renum_same num e g : renum num e g e = g. Proof. unfold renum. rewrite Nat.eqb_refl. reflexivity. Qed.
  Lemma renum_other num e g e' : e' <> e -> renum num e g e' = num e'. Proof. unfold renum. intros H. destruct (Nat.eqb_spec e' e); congruence. Qed.
  Lemma full_of (a : farr) : map fst a = C -> (forall q, V q -> exists v, dget cell_eqb a q = Some (Some v)) -> exists g, full a g.
  Proof.
    intros A B. exists (fun q => match dget cell_eqb a q with Some (Some v) => v | _ => 0 end). split; [exact A|]. intros q Hq. destruct (B q Hq) as [v Ev]. rewrite Ev. reflexivity.
  Qed.
  Lemma ahead_num (P : nat -> nat -> nat -> Prop) num num' k0 ca : (forall e j f, P e j f -> forall q, V q -> num e q = num' e q) -> ahead P num k0 ca -> ahead P num' k0 ca.
  Proof.
    intros H HA f Hf. specialize (HA f Hf). destruct (dget Nat.eqb ca f) as [b|]; [|exact HA]. destruct HA as [X [A B]]. split; [exact X|]. split; [exact A|].
    intros q Hq. destruct (B q Hq) as [Y|(v & e & j & q0 & X1 & X2 & X3 & X4 & X5)]; [left; exact Y|]. right. exists v, e, j, q0.
    refine (conj X1 (conj X2 (conj X3 (conj X4 _)))). rewrite X5. exact (H e j f X2 q0 X3).
  Qed.
  Lemma row_j e row j w : In (e, row) L -> nth_error row j = Some w -> j / 2 < length p.
  Proof. intros H K. apply HR in H. assert (j < length row) by (apply nth_error_Some; congruence). apply Nat.div_lt_upper_bound; lia. Qed.
  (** after the numbers of element e are set, the neighbours *)
  Lemma after_numbers e row n ca num own g a : In (e, row) L ->
    ahead (fun e' j f => e' < e /\ nbj e' j f) num (S e) ca -> (forall x, In x own -> x < e /\ exists b, dget Nat.eqb ca x = Some b /\ full b (num x)) ->
    dget Nat.eqb ca e = Some a -> full a g -> stepwise V Gm (renum num e g) (S e) -> ranges (S e) n (renum num e g) ->
    exists ca', fold_left (one_neighbour k p e) (combine (seq 0 (length row)) row) (Some ca) = Some ca' /\ inv (S e) n ca' (renum num e g) (own ++ [e]).
  Proof.
    intros HI HA HO Ha Fa St Rg.
    assert (HA' : ahead (fun e' j f => e' < e /\ nbj e' j f) (renum num e g) (S e) ca).
    { eapply ahead_num; [|exact HA]. intros e' j f [H _] q _. rewrite renum_other by lia. reflexivity. }
    destruct (all_steps (renum num e g) e a (combine (seq 0 (length row)) row) (fun e' j f => e' < e /\ nbj e' j f) ca) as (ca' & E & K & HA2); auto.
    - intros j w H. apply in_combine_seq in H. eapply row_j; eassumption.
    - rewrite renum_same. exact Fa.
    - exists ca'. split; [exact E|]. refine (conj _ (conj St (conj Rg _))).
      + eapply ahead_ext; [|exact HA2]. intros e' j f. cbn beta. split.
        * intros [[X Y]|[-> X]]; [split; [lia|exact Y]|]. split; [lia|]. exists row. split; [exact HI|]. apply in_combine_seq in X. exact X.
        * intros [X (row' & Y1 & Y2)]. destruct (Nat.eq_dec e' e) as [->|Ne].
          -- right. split; [reflexivity|]. apply in_combine_seq. rewrite (row_fun e row row' HI Y1). exact Y2.
          -- left. split; [lia|exists row'; auto].
      + intros x Hx. apply in_app_iff in Hx. destruct Hx as [Hx|[<-|[]]].
        * destruct (HO x Hx) as (Lx & b & Eb & Fb). split; [lia|]. exists b. split; [rewrite K by lia; exact Eb|]. rewrite renum_other by lia. exact Fb.
        * split; [lia|]. exists a. split; [rewrite K by lia; exact Ha|]. rewrite renum_same. exact Fa.
  Qed.
  (** the first element *)
  Lemma first_full : exists a g, first_arr (shapes_of k p) = Some a /\ full a g /\ (forall q q', V q -> V q' -> g q = g q' -> q = q') /\
    (forall v, v < nb (shapes_of k p) <-> exists q, V q /\ g q = v).
  Proof.
    set (ts := types k (length p)). assert (TO := types_are_ok k p). fold ts in TO.
    set (g := fun q => SpaceProofs.pos (cells p ts) (toC k (length p) q)).
    assert (E : forall c i, V (c, i) -> SpaceModel.entry (arrs_from 0 (map (sizes p) ts)) c i = Some (g (c, i))).
    { intros c i Hq. assert (Hp := place_toC k p (c, i) Hq). fold ts in Hp. destruct (place_len _ _ _ _ Hq) as [L1 L2]. apply place_spec in Hq. destruct Hq as [Hc Hi]. fold ts in Hc, Hi, L2.
      destruct (nth_error ts c) as [t|] eqn:Et; [|apply nth_error_None in Et; lia]. assert (nth c ts [] = t) by (exact (nth_error_nth (A := ctype) _ _ [] Et)). subst t.
      destruct (arrs_ex 0 (map (sizes p) ts) c (sizes p (nth c ts []))) as (ar & Ea & _); [rewrite nth_error_map, Et; reflexivity|].
      unfold SpaceModel.entry. rewrite Ea. unfold g, toC. cbn [fst snd]. fold ts. apply (get_pos p ts c); auto.
      split; [apply map_fst_combine; lia|]. apply inb_sizes; [exact L2|exact L1|]. apply inb_lt. exact Hi. }
    assert (Hfst : map fst (map (fun c : NumModel.cell => (c, SpaceModel.entry (arrs_from 0 (map (sizes p) ts)) (fst c) (snd c))) C) = C) by (rewrite map_map; apply map_id).
    exists (map (fun c : NumModel.cell => (c, SpaceModel.entry (arrs_from 0 (map (sizes p) ts)) (fst c) (snd c))) C), g. refine (conj _ (conj (conj Hfst _) (conj _ _))).
    - unfold first_arr. rewrite shapes_types. fold ts. rewrite numbering_ok. unfold C. rewrite shapes_types. reflexivity.
    - intros [c i] Hq. apply (dget_In cell_eqb nat_cell_eqb); [exact (eq_ind_r (@NoDup _) (NoDup_cellsC _) Hfst)|]. apply in_map_iff. exists (c, i). split; [|exact Hq]. cbn [fst snd]. rewrite E by exact Hq. reflexivity.
    - intros q q' Hq Hq' X. apply (toC_inj k p); auto. unfold g in X. apply pos_inj in X; auto; apply place_toC; assumption.
    - intros v. rewrite shapes_types. fold ts. rewrite nb_ok. split.
      + intros Hv. destruct (nth_error (cells p ts) v) as [x|] eqn:Ex; [|apply nth_error_None in Ex; lia].
        destruct (toC_place k p x (nth_error_In _ _ Ex)) as (q & Hq & ->). exists q. split; [exact Hq|]. unfold g. apply pos_eq; [apply NoDup_cells; exact TO|exact Ex].
      + intros (q & Hq & <-). unfold g. apply pos_lt. apply place_toC. exact Hq.
  Qed.
  Lemma ahead_weak P num k0 ca : ahead P num k0 ca -> ahead P num (S k0) ca.
  Proof. intros H f Hf. apply H. lia. Qed.
  Lemma stepwise_ext num num' k0 : (forall e q, e < k0 -> num' e q = num e q) -> stepwise V Gm num k0 -> stepwise V Gm num' k0.
  Proof.
    intros H St e q He Hq. destruct (St e q He Hq) as [(f & q0 & A & B & D & E)|(A & B & D)].
    - left. exists f, q0. refine (conj A (conj B (conj D _))). rewrite !H by lia. exact E.
    - right. refine (conj A (conj _ _)).
      + intros f q0 Hf H0. rewrite !H by lia. apply B; assumption.
      + intros q' H' X. rewrite !H in X by lia. apply D; assumption.
  Qed.
  Lemma stepwise_S num e : stepwise V Gm num e ->
    (forall q, V q -> (exists f q0, f < e /\ V q0 /\ Gm (f, q0) (e, q) /\ num e q = num f q0) \/
       (~ old V Gm e q /\ (forall f q0, f < e -> V q0 -> num f q0 < num e q) /\ (forall q', V q' -> num e q' = num e q -> q' = q))) -> stepwise V Gm num (S e).
  Proof. intros A B e' q H Hq. destruct (Nat.eq_dec e' e) as [->|Ne]; [apply B; exact Hq|apply A; [lia|exact Hq]]. Qed.
  Lemma nbj_lt e j f : nbj e j f -> e < N.
  Proof. intros (row & H & _). assert (X := in_map fst _ _ H). rewrite HL in X. apply in_seq in X. cbn [fst] in X. lia. Qed.
  (** one element *)
  Lemma element_step e row n ca num own : In (e, row) L -> inv e n ca num own -> (e = 0 -> ca = [] /\ own = [] /\ n = 0) ->
    match number_element k p (Some (n, ca)) (e, row) with
    | Some (n', ca') => (0 < e -> exists f j, f < e /\ nbj f j e) /\ exists num', inv (S e) n' ca' num' (own ++ [e]) /\ (forall e' q, e' < e -> num' e' q = num e' q)
    | None => 0 < e /\ ~ exists f j, f < e /\ nbj f j e
    end.
  Proof.
    intros HI (HA & St & Rg & HO) H0. unfold number_element. cbn [fst snd]. destruct (Nat.eqb_spec e 0) as [->|Ne].
    - destruct (H0 eq_refl) as (-> & -> & ->). destruct first_full as (a & g & Ea & Fa & Ig & Rf). rewrite Ea.
      destruct (after_numbers 0 row (0 + nb (shapes_of k p)) [(0, a)] num [] g a) as (ca' & Ec & HV); auto.
      + intros f Hf. unfold dget. cbn [lookup]. destruct (Nat.eqb_spec f 0); [lia|]. intros e' j [X _]. lia.
      + intros x [].
      + intros e' q He Hq. replace e' with 0 by lia. right. rewrite renum_same. refine (conj _ (conj _ _)).
        * intros (f & q0 & X & _). lia.
        * intros f q0 X. lia.
        * intros q' Hq' X. apply Ig; auto.
      + intros v. cbn [Nat.add]. rewrite Rf. split.
        * intros (q & Hq & <-). exists 0, q. rewrite renum_same. auto.
        * intros (e' & q & He & Hq & X). replace e' with 0 in X by lia. rewrite renum_same in X. exists q. auto.
      + rewrite Ec. cbn [option_map]. split; [lia|]. exists (renum num 0 g). split; [exact HV|]. intros e' q X. lia.
    - assert (HAe := HA e (le_n e)). destruct (dget Nat.eqb ca e) as [b|] eqn:Eb.
      2: { split; [lia|]. intros (f & j & Hf & Hn). apply (HAe f j). split; assumption. }
      destruct HAe as [(f0 & j0 & Hf0 & Hn0) [B1 B2]].
      assert (NDb : NoDup (map fst b)) by (rewrite B1; apply NoDup_cellsC).
      assert (NDb' : NoDup (map fst (snd (fill n b)))) by (rewrite fill_fst; exact NDb).
      assert (Gi : forall (d : farr) q v, NoDup (map fst d) -> In (q, v) d <-> dget cell_eqb d q = Some v) by (intros d q v ND; symmetry; apply (dget_In cell_eqb nat_cell_eqb); exact ND).
      destruct (full_of (snd (fill n b))) as (g & Fg).
      { rewrite fill_fst. exact B1. }
      { intros q Hq. destruct (B2 q Hq) as [[X _]|(v & e' & j' & q0 & X1 & _)].
        - apply Gi in X; [|exact NDb]. destruct (fill_none _ _ n X) as (v & Y & _). exists v. apply Gi; assumption.
        - exists v. apply Gi; [exact NDb'|]. apply fill_some. apply Gi; assumption. }
      (* old places keep their number, new ones get fresh numbers *)
      assert (Kold : forall q v, V q -> dget cell_eqb b q = Some (Some v) -> g q = v).
      { intros q v Hq X. apply Gi in X; [|exact NDb]. apply (fill_some _ _ _ n) in X. apply Gi in X; [|exact NDb']. destruct Fg as [_ Fg]. rewrite (Fg q Hq) in X. congruence. }
      assert (Knew : forall q, V q -> dget cell_eqb b q = Some None -> n <= g q < fst (fill n b)).
      { intros q Hq X. apply Gi in X; [|exact NDb]. destruct (fill_none _ _ n X) as (v & Y & Z). apply Gi in Y; [|exact NDb']. destruct Fg as [_ Fg]. rewrite (Fg q Hq) in Y. injection Y as ->. exact Z. }
      assert (Kinj : forall q q', V q -> V q' -> dget cell_eqb b q = Some None -> dget cell_eqb b q' = Some None -> g q = g q' -> q = q').
      { intros q q' Hq Hq' X X' E. destruct Fg as [_ Fg]. apply (fill_inj b q q' (g q) n); auto; try (apply Gi; auto; fail).
        rewrite E. apply Gi; auto. }
      assert (Kcase : forall q, V q -> (exists f q0, f < e /\ V q0 /\ Gm (f, q0) (e, q) /\ g q = num f q0) \/ (dget cell_eqb b q = Some None /\ ~ old V Gm e q)).
      { intros q Hq. destruct (B2 q Hq) as [[X Y]|(v & e' & j' & q0 & X1 & [X2 X2'] & X3 & X4 & X5)].
        - right. split; [exact X|]. intros (f & q0 & Z1 & Z2 & j & Z3 & Z4). cbn [fst snd] in Z3, Z4. exact (Y f j q0 (conj Z1 Z3) Z4).
        - left. exists e', q0. refine (conj X2 (conj X3 (conj _ _))); [exists j'; auto|]. rewrite <- X5. apply Kold; assumption. }
      assert (Rlt : forall f q0, f < e -> V q0 -> num f q0 < n) by (intros f q0 Hf H1; apply Rg; exists f, q0; auto).
      destruct (after_numbers e row (fst (fill n b)) (dset Nat.eqb ca e (snd (fill n b))) num own g (snd (fill n b))) as (ca' & Ec & HV); auto.
      + intros f Hf. rewrite (dget_dset _ Nat.eqb_eq). destruct (Nat.eqb_spec e f); [lia|]. apply HA. lia.
      + intros x Hx. destruct (HO x Hx) as (Lx & b' & Eb' & Fb'). split; [exact Lx|]. exists b'. rewrite (dget_dset _ Nat.eqb_eq). destruct (Nat.eqb_spec e x); [lia|]. auto.
      + rewrite (dget_dset _ Nat.eqb_eq), Nat.eqb_refl. reflexivity.
      + apply stepwise_S; [eapply stepwise_ext; [|exact St]; intros; rewrite renum_other by lia; reflexivity|]. intros q Hq. rewrite renum_same.
        destruct (Kcase q Hq) as [(f & q0 & A & B & D & E)|(X & Y)].
        * left. exists f, q0. refine (conj A (conj B (conj D _))). rewrite renum_other by lia. exact E.
        * right. refine (conj Y (conj _ _)).
          -- intros f q0 Hf Hq0. rewrite renum_other by lia. assert (Z := Rlt f q0 Hf Hq0). assert (Z' := Knew q Hq X). lia.
          -- intros q' Hq' E. destruct (Kcase q' Hq') as [(f & q0 & A & B & D & E')|(X' & Y')]; [|apply Kinj; auto].
             exfalso. assert (Z := Rlt f q0 A B). assert (Z' := Knew q Hq X). lia.
      + intros v. split.
        * intros Hv. destruct (Nat.lt_ge_cases v n) as [Lv|Gv].
          -- apply Rg in Lv. destruct Lv as (f & q & Hf & Hq & E). exists f, q. rewrite renum_other by lia. auto.
          -- destruct (fill_onto b v n (conj Gv Hv)) as (q & X & Y). exists e, q. rewrite renum_same.
             assert (Hq : V q) by (unfold V, place; fold C; rewrite <- B1; exact (in_map fst _ _ X)). refine (conj _ (conj Hq _)); [lia|].
             apply Gi in Y; [|exact NDb']. destruct Fg as [_ Fg]. rewrite (Fg q Hq) in Y. congruence.
        * intros (f & q & Hf & Hq & <-). assert (Hle := fill_le b n). destruct (Nat.eq_dec f e) as [->|Nf].
          -- rewrite renum_same. destruct (Kcase q Hq) as [(f & q0 & A & B & D & ->)|(X & _)]; [assert (Z := Rlt f q0 A B); lia|apply Knew; assumption].
          -- rewrite renum_other by exact Nf. assert (Z := Rlt f q ltac:(lia) Hq). lia.
      + rewrite Ec. cbn [option_map]. split; [intros _; exists f0, j0; auto|]. exists (renum num e g). split; [exact HV|]. intros e' q X. rewrite renum_other by lia. reflexivity.
  Qed.
  (** the elements of a core *)
  Definition start_ok (e n : nat) (ca : list (nat * farr)) : Prop := e = 0 -> ca = [] /\ n = 0.
  Lemma number_none m : fold_left (number_element k p) m None = None.
  Proof. induction m as [|er m IH]; [reflexivity|]. cbn [fold_left]. exact IH. Qed.
  Lemma pre_key pre er post : L = pre ++ er :: post -> fst er = length pre.
  Proof.
    intros E. assert (X : nth_error (map fst L) (length pre) = Some (fst er)).
    { rewrite E, map_app. cbn [map]. rewrite nth_error_app2; rewrite map_length; [|lia]. rewrite Nat.sub_diag. reflexivity. }
    rewrite HL in X. assert (length pre < N) by (rewrite <- (seq_length N 0); apply nth_error_Some; congruence). rewrite nth_error_seq_lt in X by assumption. injection X as X. lia.
  Qed.
  Lemma elems_step : forall m pre post n ca num own, L = pre ++ m ++ post -> inv (length pre) n ca num own -> start_ok (length pre) n ca -> (length pre = 0 -> own = []) ->
    match fold_left (number_element k p) m (Some (n, ca)) with
    | Some (n', ca') => (forall e, length pre <= e < length pre + length m -> 0 < e -> exists f j, f < e /\ nbj f j e) /\ start_ok (length pre + length m) n' ca' /\
        exists num', inv (length pre + length m) n' ca' num' (own ++ map fst m) /\ (forall e' q, e' < length pre -> num' e' q = num e' q)
    | None => exists e, length pre <= e < N /\ 0 < e /\ ~ exists f j, f < e /\ nbj f j e
    end.
  Proof.
    induction m as [|er m IH]; intros pre post n ca num own E Iv S0 O0.
    - cbn [fold_left length map]. rewrite Nat.add_0_r, app_nil_r. refine (conj _ (conj S0 _)); [intros; lia|]. exists num. auto.
    - assert (Ek := pre_key pre er (m ++ post) E). destruct er as [e row]. cbn [fst] in Ek. subst e.
      assert (HI : In (length pre, row) L) by (rewrite E; apply in_app_iff; right; left; reflexivity).
      cbn [fold_left]. assert (ST := element_step (length pre) row n ca num own HI Iv ltac:(intros X; destruct (S0 X); auto)).
      destruct (number_element k p (Some (n, ca)) (length pre, row)) as [[n1 ca1]|].
      + destruct ST as (R1 & num1 & Iv1 & Ag1). assert (LP : length (pre ++ [(length pre, row)]) = S (length pre)) by (rewrite app_length; cbn; lia).
        specialize (IH (pre ++ [(length pre, row)]) post n1 ca1 num1 (own ++ [length pre])). rewrite LP in IH.
        specialize (IH ltac:(rewrite <- app_assoc; exact E) Iv1 ltac:(intros X; lia) ltac:(lia)).
        destruct (fold_left (number_element k p) m (Some (n1, ca1))) as [[n2 ca2]|].
        * destruct IH as (R2 & S2 & num2 & Iv2 & Ag2). cbn [length map fst]. replace (length pre + S (length m)) with (S (length pre) + length m) by lia.
          refine (conj _ (conj S2 _)).
          -- intros e He Hp. destruct (Nat.eq_dec e (length pre)) as [->|Ne]; [apply R1; exact Hp|apply R2; lia].
          -- exists num2. rewrite <- app_assoc in Iv2. split; [exact Iv2|]. intros e' q He. rewrite Ag2 by lia. apply Ag1. exact He.
        * destruct IH as (e & He & Hp & HN). exists e. split; [lia|]. auto.
      + rewrite number_none. destruct ST as [Hp HN]. exists (length pre). split; [|auto]. assert (X := in_map fst _ _ HI). rewrite HL in X. apply in_seq in X. cbn [fst] in X. lia.
  Qed.
  Let W (num : nat -> NumModel.cell -> nat) (e : nat) : list nat := map (num e) (cellsF (shapes_of k p)).
  Lemma vector_full a g : full a g -> vector (shapes_of k p) a = Some (map g (cellsF (shapes_of k p))).
  Proof.
    intros [_ F]. unfold vector. apply all_some_fun. intros [c i] Hq. apply in_cellsF in Hq. rewrite (F (c, i) Hq). reflexivity.
  Qed.
  Lemma del_get (ks : list nat) : forall (ca : list (nat * farr)) f, ~ In f ks -> dget Nat.eqb (fold_left (ddel Nat.eqb) ks ca) f = dget Nat.eqb ca f.
  Proof.
    induction ks as [|x ks IH]; intros ca f H; [reflexivity|]. cbn [fold_left]. rewrite IH by (intros K; apply H; now right). rewrite (dget_ddel _ Nat.eqb_eq). destruct (Nat.eqb_spec x f) as [->|]; [|reflexivity].
    exfalso. apply H. now left.
  Qed.
  Definition sent (num : nat -> NumModel.cell -> nat) (m : emap) : list (nat * list nat) := map (fun er => (fst er, W num (fst er))) m.
  Lemma core_none l : fold_left (number_core k p) l None = None.
  Proof. induction l as [|er m IH]; [reflexivity|]. cbn [fold_left]. exact IH. Qed.
  Lemma in_pre (pre : list (nat * list beside)) post er : L = pre ++ post -> In er pre -> fst er < length pre.
  Proof.
    intros E H. apply in_split in H. destruct H as (l1 & l2 & ->). rewrite <- app_assoc in E. cbn [app] in E. rewrite (pre_key l1 er (l2 ++ post) E). rewrite app_length. cbn [length]. lia.
  Qed.
  Lemma cores_step : forall l done n ca num, ms = done ++ l -> inv (length (concat done)) n ca num [] -> start_ok (length (concat done)) n ca -> reach (length (concat done)) ->
    match fold_left (number_core k p) l (Some (n, ca, map (sent num) done)) with
    | Some (n', ca', out) => reach N /\ exists num', inv N n' ca' num' [] /\ out = map (sent num') ms
    | None => ~ reach N
    end.
  Proof.
    induction l as [|m l IH]; intros done n ca num E Iv S0 Re.
    - rewrite app_nil_r in E. subst done. cbn [fold_left]. assert (LN : length (concat ms) = N) by (rewrite <- (map_length fst); fold L; rewrite HL; apply seq_length). rewrite LN in *. split; [exact Re|]. exists num. auto.
    - assert (EL : L = concat done ++ m ++ concat l) by (unfold L; rewrite E, concat_app; reflexivity).
      cbn [fold_left]. unfold number_core at 2. assert (ES := elems_step m (concat done) (concat l) n ca num [] EL Iv S0 (fun _ => eq_refl)).
      destruct (fold_left (number_element k p) m (Some (n, ca))) as [[n1 ca1]|].
      + destruct ES as (R1 & S1 & num1 & (HA & St & Rg & HO) & Ag). cbn [app] in HO.
        rewrite (all_some_fun _ (fun e => (e, W num1 e)) (map fst m)).
        2: { intros e He. destruct (HO e He) as (_ & a & Ea & Fa). rewrite Ea, (vector_full _ _ Fa). reflexivity. }
        assert (ED : concat (done ++ [m]) = concat done ++ m) by (rewrite concat_app; cbn [concat]; rewrite app_nil_r; reflexivity).
        specialize (IH (done ++ [m]) n1 (fold_left (ddel Nat.eqb) (map fst m) ca1) num1). rewrite ED, app_length in IH.
        assert (Eo : map (sent num) done ++ [map (fun e => (e, W num1 e)) (map fst m)] = map (sent num1) (done ++ [m])).
        { rewrite map_app. cbn [map]. f_equal; [|unfold sent; rewrite map_map; reflexivity]. apply map_ext_in. intros m' Hm'. unfold sent. apply map_ext_in. intros er Her. f_equal. unfold W. apply map_ext. intros q.
          symmetry. apply Ag. apply (in_pre (concat done) (m ++ concat l)); [exact EL|]. apply in_concat. exists m'. auto. }
        rewrite Eo. apply IH.
        * rewrite <- app_assoc. exact E.
        * refine (conj _ (conj St (conj Rg _))); [|intros e []]. intros f Hf. rewrite del_get; [apply HA; exact Hf|]. intros X. destruct (HO f X). lia.
        * intros X. destruct (S1 X) as [-> ->]. split; [|reflexivity]. assert (m = []) by (destruct m; [reflexivity|cbn in X; lia]). subst m. reflexivity.
        * intros e He. destruct (Nat.lt_ge_cases e (length (concat done))) as [Lt|Ge]; [apply Re; lia|apply R1; lia].
      + rewrite core_none. destruct ES as (e & He & Hp & HN). intros HR'. apply HN. apply HR'. lia.
  Qed.
  Theorem naive_ok : match naive k p ms with
    | Some gms => reach N /\ exists num K, stepwise V Gm num N /\ ranges N K num /\ gms = map (sent num) ms
    | None => ~ reach N
    end.
  Proof.
    assert (CS := cores_step ms [] 0 [] (fun _ _ => 0) eq_refl). cbn [concat length] in CS. unfold naive. change (@nil (list (nat * list nat))) with (map (sent (fun _ _ => 0)) []).
    destruct (fold_left (number_core k p) ms (Some (0, [], map (sent (fun _ _ => 0)) []))) as [[[n ca] out]|]; cbn [option_map snd].
    - destruct CS as (R & num & (HA & St & Rg & HO) & ->).
      + refine (conj _ (conj _ (conj _ _))).
        * intros f _. cbn. intros e j [X _]. lia.
        * intros e q X. lia.
        * intros v. split; [lia|]. intros (e & q & X & _). lia.
        * intros e [].
      + intros _. auto.
      + intros e He. lia.
      + split; [exact R|]. exists num, n. auto.
    - apply CS.
      + refine (conj _ (conj _ (conj _ _))).
        * intros f _. cbn. intros e j [X _]. lia.
        * intros e q X. lia.
        * intros v. split; [lia|]. intros (e & q & X & _). lia.
        * intros e [].
      + intros _. auto.
      + intros e He. lia.
  Qed.
End Process.
