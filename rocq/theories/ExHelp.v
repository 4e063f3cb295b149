(** Deciding the hypotheses of the examples. *)
From Coq Require Import List Arith Bool Lia.
From Verif Require Import Prelude GatherModel GatherSpec RowsProofs.
Import ListNotations.

Fixpoint nodupb (l : list nat) : bool := match l with [] => true | x :: l' => negb (existsb (Nat.eqb x) l') && nodupb l' end.
Lemma existsb_In x l : existsb (Nat.eqb x) l = true <-> In x l.
Proof.
  rewrite existsb_exists. split; [intros (y & I & E); apply Nat.eqb_eq in E; subst; assumption|intros I; exists x; split; [assumption|apply Nat.eqb_refl]].
Qed.
Lemma nodupb_ok l : nodupb l = true -> NoDup l.
Proof.
  induction l as [|x l IH]; simpl; intros H; constructor; apply andb_true_iff in H; destruct H as [H1 H2]; [|auto].
  intros I. apply existsb_In in I. rewrite I in H1. discriminate.
Qed.

Definition wn_check (SIZE : nat) (gms : list GMat) (ns : list nat) : bool :=
  negb (length gms =? 0) && (length ns =? length gms) && forallb (fun g => length g =? SIZE) gms &&
  forallb (fun g => forallb (fun r => nodupb (elements g r)) (seq 0 SIZE)) gms &&
  forallb (fun g => forallb (fun g' => forallb (fun r => forallb (fun e => existsb (Nat.eqb e) (elements g' r)) (elements g r)) (seq 0 SIZE)) gms) gms &&
  forallb (fun g => forallb (fun v => negb (length v =? 0)) (map snd (concat g))) gms &&
  forallb (fun gn => let ds := concat (map snd (concat (fst gn))) in
     (0 <? snd gn) && forallb (fun d => d <? snd gn) ds && forallb (fun d => existsb (Nat.eqb d) ds) (seq 0 (snd gn))) (combine gms ns).

Lemma gv_local g r e v : gv_of g r e = Some v -> In (e, v) (nth r g []).
Proof. unfold gv_of, gm_local. apply lookup_In. Qed.
Lemma local_in_concat (g : GMat) r p : In p (nth r g []) -> In p (concat g).
Proof.
  intros I. destruct (nth_in_or_default r g []) as [J|J]; [|rewrite J in I; destruct I]. apply in_concat. eauto.
Qed.
Lemma lookup_NoDup (l : LocalGM) e v : NoDup (map fst l) -> In (e, v) l -> lookup Nat.eqb e l = Some v.
Proof.
  induction l as [|[f w] l IH]; simpl; intros ND I; [destruct I|]. inversion ND; subst. destruct I as [E|I].
  - injection E as -> ->. rewrite Nat.eqb_refl. reflexivity.
  - destruct (Nat.eqb_spec e f) as [->|]; [|auto]. exfalso. apply H1. apply in_map_iff. exists (f, v). auto.
Qed.

Lemma wn_check_ok SIZE gms ns : wn_check SIZE gms ns = true -> well_numbered SIZE gms ns.
Proof.
  unfold wn_check. rewrite !andb_true_iff. intros ((((((H1 & H2) & H3) & H4) & H5) & H6) & H7).
  rewrite forallb_forall in H3, H4, H5, H6, H7.
  assert (LS : forall g, In g gms -> length g = SIZE) by (intros g I; apply Nat.eqb_eq; auto).
  assert (OUT : forall g r, In g gms -> ~ r < SIZE -> elements g r = []).
  { intros g r I Hr. unfold elements, gm_local. rewrite nth_overflow; [reflexivity|]. rewrite LS by assumption. lia. }
  assert (KEYS : forall g r, In g gms -> NoDup (elements g r)).
  { intros g r I. destruct (lt_dec r SIZE) as [Hr|Hr]; [|rewrite OUT by assumption; constructor].
    apply nodupb_ok. specialize (H4 g I). rewrite forallb_forall in H4. apply H4, in_seq. lia. }
  constructor.
  - intros ->. discriminate.
  - apply Nat.eqb_eq. assumption.
  - assumption.
  - assumption.
  - intros g g' r e I I' Ie. destruct (lt_dec r SIZE) as [Hr|Hr]; [|rewrite OUT in Ie by assumption; destruct Ie].
    specialize (H5 g I). rewrite forallb_forall in H5. specialize (H5 g' I'). rewrite forallb_forall in H5.
    specialize (H5 r ltac:(apply in_seq; lia)). rewrite forallb_forall in H5. apply existsb_In, H5, Ie.
  - intros g r e v I E. apply gv_local, local_in_concat in E. specialize (H6 g I). rewrite forallb_forall in H6.
    specialize (H6 v ltac:(apply in_map_iff; exists (e, v); auto)). intros ->. discriminate.
  - intros j g n Eg En. assert (IC : In (g, n) (combine gms ns)).
    { clear - Eg En. revert gms ns Eg En. induction j; intros [|g' gms] [|n' ns] Eg En; simpl in *; try discriminate; [left; congruence|right; eauto]. }
    specialize (H7 _ IC). cbn [fst snd] in H7. rewrite !andb_true_iff in H7. destruct H7 as ((H71 & H72) & H73). split; [apply Nat.ltb_lt; assumption|].
    rewrite forallb_forall in H72, H73. pose proof (nth_error_In _ _ Eg) as Ig. intros d. split.
    + intros (r & e & v & E & Id). apply Nat.ltb_lt, H72. apply gv_local, local_in_concat in E. apply in_concat. exists v. split; [|assumption].
      apply in_map_iff. exists (e, v). auto.
    + intros L. specialize (H73 d ltac:(apply in_seq; lia)). apply existsb_In, in_concat in H73. destruct H73 as (v & Iv & Id).
      apply in_map_iff in Iv. destruct Iv as ((e & v') & Q & Iv). cbn [snd] in Q. subst v'. apply in_concat in Iv. destruct Iv as (l & Il & Iv).
      apply In_nth with (d := []) in Il. destruct Il as (r & Hr & <-). exists r, e, v. split; [|assumption].
      unfold gv_of, gm_local. apply lookup_NoDup; [apply (KEYS g r Ig)|assumption].
Qed.

Definition regular_check (g : GMat) : bool :=
  match concat g with [] => true | (e, v) :: l => forallb (fun p => length (snd p) =? length v) l end.
Lemma regular_check_ok g : regular_check g = true -> regular g.
Proof.
  unfold regular_check, regular. intros H. destruct (concat g) as [|[e0 v0] l] eqn:E.
  - exists 0. intros r e v X. apply gv_local, local_in_concat in X. rewrite E in X. destruct X.
  - exists (length v0). intros r e v X. apply gv_local, local_in_concat in X. rewrite E in X. rewrite forallb_forall in H. destruct X as [X|X]; [congruence|].
    apply Nat.eqb_eq. apply (H _ X).
Qed.

From Verif Require Import RingSum AssembleModel EwcModel AsmModel AsmSpec GatherProofs.
Definition once_check (SIZE : nat) (gms : list GMat) : bool :=
  forallb (fun r => forallb (fun e => match CGM_getitem SIZE gms Silly r e with Some v => nodupb v | None => true end) (elements (nth 0 gms []) r)) (seq 0 SIZE).
Lemma once_check_ok SIZE gms ns M : well_numbered SIZE gms ns -> once_check SIZE gms = true -> once SIZE gms M.
Proof.
  intros WN H r e v i j E Ei Ej. destruct (getitem_elements _ _ _ WN _ _ _ _ E) as [Hr He]. unfold once_check in H. rewrite forallb_forall in H.
  specialize (H r ltac:(apply in_seq; lia)). rewrite forallb_forall in H. specialize (H e He). rewrite E in H. apply nodupb_ok in H.
  rewrite NoDup_nth_error in H. apply H; [apply nth_error_Some; congruence|congruence].
Qed.
