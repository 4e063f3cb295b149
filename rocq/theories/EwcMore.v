(** Consequences of [access_ok] and the counterexamples of C15 and C16. *)
From Coq Require Import List Arith Bool Lia.
From Coq Require Ascii String.
Import (notations) String.
From Coq Require Import Ascii.
From Verif Require Import Prelude PreludeProofs EwcModel EwcSpec EwcProofs.
Import ListNotations.

Section More.
  Variables V W CUS : Type.
  Variable apply : CUS -> V -> option V.
  Variable prog : list (node V W).
  Variable elements : list nat.
  Variable cl : nat -> class.

  Lemma registered_none evs n e : (forall e c, ~ In (Customize n e c) evs) -> registered W CUS evs n e = [].
  Proof.
    intros H. unfold registered.
    assert (G : fold_left (fun acc ev => match ev with
      | Customize n' e' c => if (n' =? n) && (e' =? e) then acc ++ [c] else acc
      | Clear n' => if n' =? n then [] else acc
      | Access _ _ _ => acc end) evs [] = @nil CUS); [|exact G].
    induction evs as [|ev evs IH] using rev_ind; [reflexivity|]. rewrite fold_left_app. cbn [fold_left].
    rewrite IH by (intros e' c I; apply (H e' c); apply in_or_app; auto).
    destruct ev as [w m j|m j c|m]; [reflexivity| |destruct (m =? n); reflexivity].
    destruct (m =? n) eqn:E; [|reflexivity]. apply Nat.eqb_eq in E. subst. exfalso. apply (H j c). apply in_or_app. simpl. auto.
  Qed.

  Lemma customizations_ok evs w n i : sound_prog V W prog elements cl -> customizes_roots V W CUS prog evs ->
    n < length prog -> In i elements ->
    exists v, denotes V W prog w i n v /\
              access V W CUS apply prog elements evs w n i = apply_all V CUS apply (registered W CUS evs n i) v.
  Proof. intros SP R Hn Hi. eapply access_ok; eassumption. Qed.

  Lemma uncustomized evs w n i : sound_prog V W prog elements cl -> customizes_roots V W CUS prog evs ->
    n < length prog -> In i elements -> (forall e c, ~ In (Customize n e c) evs) ->
    exists v, denotes V W prog w i n v /\ access V W CUS apply prog elements evs w n i = Some v.
  Proof.
    intros SP R Hn Hi NC. destruct (customizations_ok evs w n i SP R Hn Hi) as (v & D & A). exists v. split; [assumption|].
    rewrite A, registered_none by assumption. reflexivity.
  Qed.

  Lemma cache_transparent evs w n i : sound_prog V W prog elements cl -> (forall m e c, ~ In (Customize m e c) evs) ->
    n < length prog -> In i elements ->
    exists v, denotes V W prog w i n v /\ access V W CUS apply prog elements evs w n i = Some v.
  Proof.
    intros SP H Hn Hi. apply uncustomized; auto. intros m e c I. exfalso. apply (H m e c I).
  Qed.

  Lemma access_outside evs w n i : ~ In i elements -> access V W CUS apply prog elements evs w n i = None.
  Proof.
    intros H. unfold access. cbn [getitem].
    destruct (member elements i) eqn:E; [exfalso; apply H; apply member_spec; assumption|reflexivity].
  Qed.

  Lemma operators_ok evs w n i st f args : sound_prog V W prog elements cl -> customizes_roots V W CUS prog evs ->
    nth_error prog n = Some (Op st f args) -> In i elements -> (forall e c, ~ In (Customize n e c) evs) ->
    exists vs, Forall2 (fun a v => access V W CUS apply prog elements evs w a i = Some v) args vs /\
               access V W CUS apply prog elements evs w n i = Some (f vs).
  Proof.
    intros SP R E Hi NC. assert (Hn : n < length prog) by (apply nth_error_Some; congruence).
    destruct (uncustomized evs w n i SP R Hn Hi NC) as (v & D & A).
    inversion D as [n1 KG DG E'|n1 st' f' args' vs E' F]; subst; rewrite E in E'; [discriminate|].
    injection E' as <- <- <-. exists vs. split; [|assumption].
    assert (AL : forall a, In a args -> a < n) by (intros a; apply (args_lt V W prog elements cl SP n st f args E)).
    assert (OP : forall a, In a args -> operand V W prog a) by (intros a I; exists n, st, f, args; auto).
    clear - F SP R AL Hn Hi OP. induction F as [|a v args vs Hv F IH]; constructor.
    - destruct (uncustomized evs w a i SP R) as (v' & D' & A').
      + specialize (AL a (or_introl eq_refl)). lia.
      + assumption.
      + intros e c I. apply (R a e c I). apply OP. left. reflexivity.
      + rewrite A'. f_equal. eapply den_fun; eassumption.
    - apply IH; intros b I; [apply AL|apply OP]; right; assumption.
  Qed.

  Lemma clear_restores evs w n i : sound_prog V W prog elements cl -> customizes_roots V W CUS prog evs ->
    n < length prog -> In i elements ->
    exists v, denotes V W prog w i n v /\ access V W CUS apply prog elements (evs ++ [Clear n]) w n i = Some v.
  Proof.
    intros SP R Hn Hi. destruct (customizations_ok (evs ++ [Clear n]) w n i SP) as (v & D & A); auto.
    - intros m e c I. apply in_app_or in I. destruct I as [I|[I|[]]]; [apply (R m e c I)|discriminate].
    - exists v. split; [assumption|]. rewrite A. unfold registered. rewrite fold_left_app. cbn [fold_left].
      rewrite Nat.eqb_refl. reflexivity.
  Qed.
End More.

Lemma vector_sum_ok :
  forall (V W CUS : Type) (apply : CUS -> V -> option V) (elements : list nat)
         (KG1 KG2 : nat -> key) (DG1 DG2 : W -> nat -> V) (f : list V -> V) (c1 c2 : class)
         (evs : list (event W CUS)) (w : W) (i : nat),
    leaf_sound V W elements KG1 DG1 c1 -> leaf_sound V W elements KG2 DG2 c2 ->
    c1 = NoCache \/ c2 = Const ->
    In i elements -> (forall m e c, ~ In (Customize m e c) evs) ->
    access V W CUS apply [Leaf KG1 DG1; Leaf KG2 DG2; Op KFirstTwice f [0; 1]] elements evs w 2 i = Some (f [DG1 w i; DG2 w i]).
Proof.
  intros V W CUS apply elements KG1 KG2 DG1 DG2 f c1 c2 evs w i L1 L2 C Hi NC.
  set (prog := [Leaf KG1 DG1; Leaf KG2 DG2; Op KFirstTwice f [0; 1]]).
  set (cl := fun n => match n with 0 => c1 | 1 => c2 | _ => c1 end).
  assert (SP : sound_prog V W prog elements cl).
  { intros n nd E. destruct n as [|[|[|n]]]; simpl in E; [..|destruct n; discriminate]; injection E as <-; simpl; auto.
    split; [discriminate|]. split; [intros; lia|]. exists 0, 1. simpl. intuition. }
  destruct (cache_transparent V W CUS apply prog elements cl evs w 2 i SP NC) as (v & D & A); [simpl; lia|assumption|].
  rewrite A. f_equal. eapply den_fun; [exact SP|exact D|].
  eapply den_op; [reflexivity|]. repeat constructor.
  - eapply (den_leaf _ _ prog w i 0). reflexivity.
  - eapply (den_leaf _ _ prog w i 1). reflexivity.
Qed.

Notation sum_ := (fold_right Nat.add 0).

Lemma den2 (KG1 KG2 : nat -> key) (DG1 DG2 : nat -> nat -> nat) st w i :
  denotes nat nat [Leaf KG1 DG1; Leaf KG2 DG2; Op st sum_ [0; 1]] w i 2 (DG1 w i + (DG2 w i + 0)).
Proof.
  change (DG1 w i + (DG2 w i + 0)) with (sum_ [DG1 w i; DG2 w i]). eapply den_op; [reflexivity|]. repeat constructor.
  - eapply den_leaf with (n := 0). reflexivity.
  - eapply den_leaf with (n := 1). reflexivity.
Qed.

Lemma ambiguous_keys :
  exists (prog : list (node nat nat)) (elements : list nat) (KG1 KG2 : nat -> key) (DG1 DG2 : nat -> nat -> nat)
         (evs : list (event nat nat)) (i v : nat),
    prog = [Leaf KG1 DG1; Leaf KG2 DG2; Op KConcat sum_ [0; 1]] /\
    (forall i j w w', In i elements -> In j elements -> KG1 i = KG1 j -> DG1 w i = DG1 w' j) /\
    (forall i j w w', In i elements -> In j elements -> KG2 i = KG2 j -> DG2 w i = DG2 w' j) /\
    In i elements /\ (forall m e c, ~ In (Customize m e c) evs) /\
    denotes nat nat prog 0 i 2 v /\
    access nat nat nat (fun _ x => Some x) prog elements evs 0 2 i <> Some v.
Proof.
  exists [Leaf (fun i => of_str (match i with 0 => "a" | _ => "ab" end)%string) (fun _ i => i);
     Leaf (fun i => of_str (match i with 0 => "bc" | _ => "c" end)%string) (fun _ i => 10 * i); Op KConcat sum_ [0; 1]], [0; 1].
  eexists _, _, _, _, [Access 0 2 0], 1, 11. split; [reflexivity|].
  split; [intros i j w w' [<-|[<-|[]]] [<-|[<-|[]]]; reflexivity || discriminate|].
  split; [intros i j w w' [<-|[<-|[]]] [<-|[<-|[]]]; reflexivity || discriminate|].
  split; [simpl; auto|]. split; [intros m e c [H|[]]; discriminate|].
  split; [apply (den2 _ _ (fun _ i => i) (fun _ i => 10 * i) KConcat 0 1)|]. vm_compute. discriminate.
Qed.

Lemma customized_operand :
  exists (prog : list (node nat nat)) (elements : list nat) (cl : nat -> class) (evs : list (event nat nat)) (i v : nat),
    sound_prog nat nat prog elements cl /\ In i elements /\
    prog = [Leaf (fun _ => CT) (fun _ _ => 5); Op KConcat (fun l => 1000 - sum_ l) [0]] /\
    evs = [Customize 0 0 7; Access 0 1 0] /\
    access nat nat nat (fun c _ => Some c) prog elements evs 0 0 i = Some v /\
    access nat nat nat (fun c _ => Some c) prog elements evs 0 1 i <> Some (1000 - v).
Proof.
  eexists _, [0; 1], (fun _ => Const), _, 1, 5. split; [|split; [|split; [reflexivity|split; [reflexivity|]]]].
  - intros n nd E. destruct n as [|[|n]]; simpl in E; [..|destruct n; discriminate]; injection E as <-; simpl; auto.
    split; [discriminate|]. split; [intros; lia|reflexivity].
  - simpl. auto.
  - split; [vm_compute; reflexivity|]. intros E. apply (f_equal (fun o => match o with Some x => x =? 993 | None => false end)) in E.
    vm_compute in E. discriminate.
Qed.

Lemma vector_sum_stale :
  exists (prog : list (node nat nat)) (elements : list nat) (KG1 KG2 : nat -> key) (DG1 DG2 : nat -> nat -> nat)
         (evs : list (event nat nat)) (w i v : nat),
    prog = [Leaf KG1 DG1; Leaf KG2 DG2; Op KFirstTwice sum_ [0; 1]] /\
    leaf_sound nat nat elements KG1 DG1 Const /\ leaf_sound nat nat elements KG2 DG2 NoCache /\
    In i elements /\ (forall m e c, ~ In (Customize m e c) evs) /\
    denotes nat nat prog w i 2 v /\
    access nat nat nat (fun _ x => Some x) prog elements evs w 2 i <> Some v.
Proof.
  exists [Leaf (fun _ => CT) (fun _ _ => 5); Leaf (fun _ => NC) (fun w i => w); Op KFirstTwice sum_ [0; 1]], [0; 1].
  eexists _, _, _, _, [Access 1 2 0], 2, 0, 7. split; [reflexivity|]. split; [simpl; auto|].
  split; [intros i _; exists [], []; reflexivity|]. split; [simpl; auto|].
  split; [intros m e c [H|[]]; discriminate|].
  split; [apply (den2 _ _ (fun _ _ => 5) (fun w _ => w) KFirstTwice 2 0)|]. vm_compute. discriminate.
Qed.

Lemma vector_sum_keyed :
  exists (prog : list (node nat nat)) (elements : list nat) (KG1 KG2 : nat -> key) (DG1 DG2 : nat -> nat -> nat)
         (evs : list (event nat nat)) (w i v : nat),
    prog = [Leaf KG1 DG1; Leaf KG2 DG2; Op KFirstTwice sum_ [0; 1]] /\
    leaf_sound nat nat elements KG1 DG1 Const /\ leaf_sound nat nat elements KG2 DG2 Keyed /\
    In i elements /\ (forall m e c, ~ In (Customize m e c) evs) /\
    denotes nat nat prog w i 2 v /\
    access nat nat nat (fun _ x => Some x) prog elements evs w 2 i <> Some v.
Proof.
  exists [Leaf (fun _ => CT) (fun _ _ => 5); Leaf (fun i => of_str (match i with 0 => "a" | _ => "b" end)%string) (fun w i => i); Op KFirstTwice sum_ [0; 1]], [0; 1].
  eexists _, _, _, _, [Access 1 2 0], 2, 1, 6. split; [reflexivity|]. split; [simpl; auto|].
  split.
  { split; [exists 1; split; [lia|]; intros [|i] _; reflexivity|]. split.
    - intros [|i] _; simpl; intuition discriminate.
    - intros w i w' j [<-|[<-|[]]] [<-|[<-|[]]]; reflexivity || discriminate. }
  split; [simpl; auto|]. split; [intros m e c [H|[]]; discriminate|].
  split; [apply (den2 _ _ (fun _ _ => 5) (fun _ i => i) KFirstTwice 2 1)|]. vm_compute. discriminate.
Qed.
