(** Customizations of column vectors (C17): merging them while keeping only the last value per index
    is the same as applying them one after the other. *)
From Coq Require Import List Arith Bool Lia.
From Verif Require Import Prelude PreludeProofs AssembleModel AssembleProofs EwcModel EwcSpec EwcProofs.
Import ListNotations.

Section VSpec.
  Variable T : Type.
  Variable zero : T.
  (** one customization applied to a vector, directly *)
  Definition vapply (c : vcusop T) (x : lvec T) : option (lvec T) :=
    match c with
    | cletr i => vset T i zero x
    | slet i v => vset T i v x
    | slest is vs => vsets T (combine is vs) x
    end.
  Fixpoint vapply_all (cs : list (vcusop T)) (x : lvec T) : option (lvec T) :=
    match cs with [] => Some x | c :: cs' => match vapply c x with Some y => vapply_all cs' y | None => None end end.
  (** those of element e since the last clear *)
  Definition vregistered (evs : list (vevent T)) (e : nat) : list (vcusop T) :=
    fold_left (fun acc ev => match ev with
      | VCustomize _ e' c => if e' =? e then acc ++ [c] else acc
      | VClear _ => []
      | VAccess _ _ => acc end) evs [].
  Definition veq (a b : option (lvec T)) : Prop :=
    match a, b with
    | None, None => True
    | Some x, Some y => vlen T x = vlen T y /\ forall i, vent T x i = vent T y i
    | _, _ => False
    end.
End VSpec.

Section VCus.
  Variable T : Type.
  Variable zero : T.
  Notation renew := (renew T). Notation vsets := (vsets T).

  Fixpoint lasta (iv : list (nat * T)) (a : nat) : option T :=
    match iv with
    | [] => None
    | (i, v) :: iv' => match lasta iv' a with Some x => Some x | None => if a =? i then Some v else None end
    end.
  Definition inr (L : nat) (iv : list (nat * T)) : bool := forallb (fun p => fst p <? L) iv.

  Lemma vsets_char iv : forall x, veq T (vsets iv x)
    (if inr (vlen T x) iv then Some (mkV T (vlen T x) (fun a => match lasta iv a with Some v => v | None => vent T x a end)) else None).
  Proof.
    induction iv as [|(i, v) iv IH]; intros x; [simpl; auto|].
    cbn [EwcModel.vsets inr forallb fst]. unfold vset. destruct (i <? vlen T x) eqn:E; [|exact I].
    cbn [andb]. specialize (IH (mkV T (vlen T x) (fun a => if a =? i then v else vent T x a))). cbn [vlen vent] in IH.
    fold (inr (vlen T x) iv). destruct (inr (vlen T x) iv); destruct (vsets iv _) as [y|]; simpl in *; try assumption.
    destruct IH as (IH1 & IH2). split; [assumption|]. intros a. rewrite IH2. destruct (lasta iv a); [reflexivity|].
    destruct (a =? i); reflexivity.
  Qed.

  Lemma veq_sym a b : veq T a b -> veq T b a.
  Proof. destruct a, b; simpl; try tauto. intros (E & H). split; [congruence|]. intros. symmetry. apply H. Qed.
  Lemma veq_trans a b c : veq T a b -> veq T b c -> veq T a c.
  Proof.
    destruct a, b, c; simpl; try tauto. intros (E & H) (E' & H'). split; [congruence|]. intros. rewrite H. apply H'.
  Qed.

  Definition eqv (a b : list (nat * T)) : Prop := (forall i, lasta a i = lasta b i) /\ forall L, inr L a = inr L b.

  Lemma eqv_vsets a b x : eqv a b -> veq T (vsets a x) (vsets b x).
  Proof.
    intros (H1 & H2). eapply veq_trans; [apply vsets_char|]. apply veq_sym. eapply veq_trans; [apply vsets_char|].
    rewrite H2. destruct (inr _ _); simpl; [|exact I]. split; [reflexivity|]. intros i. rewrite H1. reflexivity.
  Qed.

  Lemma lasta_app a b i : lasta (a ++ b) i = match lasta b i with Some v => Some v | None => lasta a i end.
  Proof.
    induction a as [|(j, v) a IH]; simpl; [destruct (lasta b i); reflexivity|]. rewrite IH.
    destruct (lasta b i); [reflexivity|]. reflexivity.
  Qed.
  Lemma inr_app L a b : inr L (a ++ b) = inr L a && inr L b.
  Proof. apply forallb_app. Qed.
  Lemma eqv_app a a' b b' : eqv a a' -> eqv b b' -> eqv (a ++ b) (a' ++ b').
  Proof.
    intros (A1 & A2) (B1 & B2). split; [intros i; rewrite !lasta_app, A1, B1; reflexivity|].
    intros L. rewrite !inr_app, A2, B2. reflexivity.
  Qed.
  Lemma eqv_refl a : eqv a a. Proof. split; reflexivity. Qed.
  Lemma eqv_trans a b c : eqv a b -> eqv b c -> eqv a c.
  Proof. intros (A & B) (C & D). split; intros; [rewrite A; apply C|rewrite B; apply D]. Qed.

  Definition asg (c : vcusop T) : list (nat * T) :=
    match c with cletr i => [(i, zero)] | slet i v => [(i, v)] | slest is vs => combine is vs end.
  Definition asgs (cs : list (vcusop T)) := concat (map asg cs).

  Lemma lasta_In iv i : ~ In i (map fst iv) -> lasta iv i = None.
  Proof.
    induction iv as [|(j, v) iv IH]; simpl; [reflexivity|]. intros N. rewrite IH by tauto.
    destruct (i =? j) eqn:E; [|reflexivity]. apply Nat.eqb_eq in E. subst. tauto.
  Qed.

  Lemma keys_renew iv i v k : In k (map fst (renew iv i v)) <-> k = i \/ In k (map fst iv).
  Proof.
    induction iv as [|(j, x) iv IH]; simpl; [intuition congruence|]. destruct (j =? i) eqn:E; simpl.
    - apply Nat.eqb_eq in E. subst. intuition congruence.
    - rewrite IH. intuition congruence.
  Qed.

  Lemma renew_ok iv i v : NoDup (map fst iv) -> NoDup (map fst (renew iv i v)) /\ eqv (renew iv i v) (iv ++ [(i, v)]).
  Proof.
    induction iv as [|(j, x) iv IH]; intros N; [simpl; split; [repeat constructor; tauto|apply eqv_refl]|].
    simpl in N. inversion N as [|? ? Nj N']; subst. cbn [EwcModel.renew]. destruct (j =? i) eqn:E.
    - apply Nat.eqb_eq in E. subst j. split; [exact N|]. split.
      + intros a. rewrite lasta_app. simpl. destruct (a =? i) eqn:Ea; [|destruct (lasta iv a); reflexivity].
        apply Nat.eqb_eq in Ea. subst. rewrite lasta_In by assumption. reflexivity.
      + intros L. rewrite inr_app. unfold inr. simpl. destruct (i <? L); simpl; rewrite ?andb_true_r; reflexivity.
    - destruct (IH N') as (N1 & A & B). split.
      + simpl. constructor; [|assumption]. rewrite keys_renew. apply Nat.eqb_neq in E. intuition congruence.
      + split; [intros a; simpl; rewrite A; reflexivity|intros L; unfold inr in *; simpl; rewrite B; reflexivity].
  Qed.

  Lemma fold_renew ps iv : NoDup (map fst iv) ->
    NoDup (map fst (fold_left (fun iv p => renew iv (fst p) (snd p)) ps iv)) /\
    eqv (fold_left (fun iv p => renew iv (fst p) (snd p)) ps iv) (iv ++ ps).
  Proof.
    revert iv. induction ps as [|(i, v) ps IH]; intros iv N; simpl.
    - rewrite app_nil_r. split; [assumption|apply eqv_refl].
    - destruct (renew_ok iv i v N) as (N1 & E1). destruct (IH _ N1) as (N2 & E2). split; [assumption|].
      eapply eqv_trans; [exact E2|]. replace (iv ++ (i, v) :: ps) with ((iv ++ [(i, v)]) ++ ps) by (rewrite <- app_assoc; reflexivity).
      apply eqv_app; [assumption|apply eqv_refl].
  Qed.

  Lemma renew_cus_ok c iv : NoDup (map fst iv) -> NoDup (map fst (renew_cus T zero iv c)) /\ eqv (renew_cus T zero iv c) (iv ++ asg c).
  Proof. intros N. destruct c; simpl; [apply renew_ok|apply renew_ok|apply fold_renew]; assumption. Qed.

  Lemma renew_all_ok cs iv : NoDup (map fst iv) ->
    NoDup (map fst (fold_left (renew_cus T zero) cs iv)) /\ eqv (fold_left (renew_cus T zero) cs iv) (iv ++ asgs cs).
  Proof.
    revert iv. induction cs as [|c cs IH]; intros iv N; simpl.
    - unfold asgs. simpl. rewrite app_nil_r. split; [assumption|apply eqv_refl].
    - destruct (renew_cus_ok c iv N) as (N1 & E1). destruct (IH _ N1) as (N2 & E2). split; [assumption|].
      eapply eqv_trans; [exact E2|]. unfold asgs. simpl. rewrite app_assoc. apply eqv_app; [assumption|apply eqv_refl].
  Qed.

  Lemma lookup_dput {X} (d : list (nat * X)) e x e' : lookup Nat.eqb e' (dput d e x) = if e' =? e then Some x else lookup Nat.eqb e' d.
  Proof.
    induction d as [|(a, y) d IH]; simpl; [destruct (e' =? e); reflexivity|].
    destruct (a =? e) eqn:E; simpl.
    - apply Nat.eqb_eq in E. subst. destruct (e' =? e); reflexivity.
    - rewrite IH. destruct (e' =? a) eqn:E'; [|reflexivity]. apply Nat.eqb_eq in E'. subst. rewrite E. reflexivity.
  Qed.

  Lemma keys_register (d : list (nat * list (vcusop T))) e c k :
    In k (map fst (register _ d e c)) <-> k = e \/ In k (map fst d).
  Proof.
    induction d as [|(j, x) d IH]; simpl; [intuition congruence|]. destruct (j =? e) eqn:E; simpl.
    - apply Nat.eqb_eq in E. subst. intuition congruence.
    - rewrite IH. intuition congruence.
  Qed.
  Lemma NoDup_register (d : list (nat * list (vcusop T))) e c : NoDup (map fst d) -> NoDup (map fst (register _ d e c)).
  Proof.
    induction d as [|(j, x) d IH]; simpl; [intros; repeat constructor; tauto|]. intros N. inversion N; subst.
    destruct (j =? e) eqn:E; simpl; constructor; auto. rewrite keys_register. apply Nat.eqb_neq in E. intuition congruence.
  Qed.

  (** what is to be applied to element e once the pending ones are merged *)
  Definition content (s : vstate T) (e : nat) : list (nat * T) := dget (snd s) e ++ asgs (dget (fst s) e).

  Lemma fold_sent pend : NoDup (map fst pend) -> forall ap e, (forall e, NoDup (map fst (dget ap e))) ->
    let r := fold_left (fun ap ec => dput ap (fst ec) (fold_left (renew_cus T zero) (snd ec) (dget ap (fst ec)))) pend ap in
    NoDup (map fst (dget r e)) /\ eqv (dget r e) (dget ap e ++ asgs (dget pend e)).
  Proof.
    induction pend as [|(a, cs) pend IH]; intros N ap e NA; simpl.
    - unfold asgs. simpl. rewrite app_nil_r. split; [apply NA|apply eqv_refl].
    - inversion N as [|? ? Na N']; subst. set (ap' := dput ap a (fold_left (renew_cus T zero) cs (dget ap a))).
      assert (D : forall e, dget ap' e = if e =? a then fold_left (renew_cus T zero) cs (dget ap a) else dget ap e).
      { intros e0. unfold dget, ap'. rewrite lookup_dput. destruct (e0 =? a); reflexivity. }
      destruct (IH N' ap' e) as (N2 & E2).
      { intros e0. rewrite D. destruct (e0 =? a); [apply renew_all_ok|]; apply NA. }
      split; [assumption|]. eapply eqv_trans; [exact E2|]. rewrite D.
      assert (DP : dget ((a, cs) :: pend) e = if e =? a then cs else dget pend e) by (unfold dget; simpl; destruct (e =? a); reflexivity).
      rewrite DP.
      destruct (e =? a) eqn:E.
      + apply Nat.eqb_eq in E. subst. replace (dget pend a) with (@nil (vcusop T)).
        * change (asgs []) with (@nil (nat * T)). rewrite app_nil_r. apply renew_all_ok, NA.
        * unfold dget. destruct (lookup Nat.eqb a pend) eqn:L; [|reflexivity]. exfalso. apply Na.
          clear - L. induction pend as [|(b, x) pend IH]; simpl in *; [discriminate|]. destruct (a =? b) eqn:E; [|auto].
          apply Nat.eqb_eq in E. auto.
      + apply eqv_refl.
  Qed.

  Definition vinv (s : vstate T) : Prop := NoDup (map fst (fst s)) /\ forall e, NoDup (map fst (dget (snd s) e)).

  Lemma sent_ok s : vinv s -> vinv (sent_to_applying T zero s) /\ forall e, eqv (content (sent_to_applying T zero s) e) (content s e).
  Proof.
    intros (N1 & N2). split.
    - split; [constructor|]. intros e. apply (fold_sent (fst s) N1 (snd s) e N2).
    - intros e. unfold content, sent_to_applying. cbn [fst snd]. change (asgs (dget [] e)) with (@nil (nat * T)).
      rewrite app_nil_r. apply fold_sent; assumption.
  Qed.

  Lemma dget_register (d : list (nat * list (vcusop T))) e c e' :
    dget (register _ d e c) e' = if e' =? e then dget d e ++ [c] else dget d e'.
  Proof. unfold dget. rewrite lookup_register. destruct (e' =? e); reflexivity. Qed.

  Lemma asgs_app a b : asgs (a ++ b) = asgs a ++ asgs b.
  Proof. unfold asgs. rewrite map_app, concat_app. reflexivity. Qed.

  Lemma vrun_ok evs : let s := fold_left (vstep T zero) evs ([], []) in
    vinv s /\ forall e, eqv (content s e) (asgs (vregistered T evs e)).
  Proof.
    induction evs as [|ev evs IH] using rev_ind.
    - simpl. split; [split; [constructor|intros; constructor]|]. intros. apply eqv_refl.
    - cbv zeta in *. rewrite fold_left_app. cbn [fold_left]. destruct IH as (I1 & C1).
      set (s := fold_left (vstep T zero) evs ([], [])) in *.
      unfold vregistered. setoid_rewrite fold_left_app. cbn [fold_left].
      fold (vregistered T evs). destruct ev as [e c|e|]; cbn [vstep].
      + split.
        * split; [apply NoDup_register, I1|apply I1].
        * intros e'. unfold content. cbn [fst snd]. rewrite dget_register. rewrite (Nat.eqb_sym e e').
          fold (vregistered T evs e'). specialize (C1 e'). unfold content in C1. destruct (e' =? e) eqn:E; [|exact C1].
          apply Nat.eqb_eq in E. subst. rewrite !asgs_app, app_assoc. apply eqv_app; [exact C1|apply eqv_refl].
      + destruct (sent_ok s I1) as (I2 & C2). split; [assumption|]. intros e'. eapply eqv_trans; [apply C2|apply C1].
      + split; [split; [constructor|intros; constructor]|]. intros. apply eqv_refl.
  Qed.

  Lemma vsets_app a b x : vsets (a ++ b) x = match vsets a x with Some y => vsets b y | None => None end.
  Proof.
    revert x. induction a as [|(i, v) a IH]; intros x; [reflexivity|]. simpl. destruct (vset T i v x); [apply IH|reflexivity].
  Qed.

  Lemma vapply_all_asgs cs x : vapply_all T zero cs x = vsets (asgs cs) x.
  Proof.
    revert x. induction cs as [|c cs IH]; intros x; [reflexivity|].
    unfold asgs. cbn [map concat vapply_all]. rewrite vsets_app.
    assert (A : vapply T zero c x = vsets (asg c) x).
    { destruct c; simpl; try reflexivity; destruct (vset T _ _ x); reflexivity. }
    rewrite A. destruct (vsets (asg c) x); [apply IH|reflexivity].
  Qed.

  Theorem vcus_ok evs x e :
    veq T (fst (vexecute T zero (fold_left (vstep T zero) evs ([], [])) x e)) (vapply_all T zero (vregistered T evs e) x).
  Proof.
    destruct (vrun_ok evs) as (I1 & C1). destruct (sent_ok _ I1) as (_ & C2).
    rewrite vapply_all_asgs. eapply veq_trans; [|apply eqv_vsets; apply C1].
    eapply veq_trans; [|apply eqv_vsets; apply C2].
    unfold vexecute, content. cbn [fst snd]. unfold sent_to_applying at 3. cbn [fst].
    change (asgs (dget [] e)) with (@nil (nat * T)). rewrite app_nil_r.
    unfold dget. destruct (lookup Nat.eqb e _); simpl; [|auto].
    destruct (vsets l x); simpl; auto.
  Qed.
End VCus.
