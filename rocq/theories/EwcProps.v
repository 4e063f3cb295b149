(** Properties C14-C17: element-wise cached matrices and vectors. *)
From Coq Require Import List Arith Bool Lia.
From Coq Require Ascii String.
Import (notations) String.
From Coq Require Import Ascii.
From Verif Require Import Prelude EwcModel EwcSpec EwcProofs VCusProofs EwcMore.
Import ListNotations.

(** * C14: the cache is transparent *)
(** Whatever was accessed before, in whatever order and in whatever world, the value accessed now is
    the one the generators give now. *)
Theorem C14_cache_transparent :
  forall (V W CUS : Type) (apply : CUS -> V -> option V) (prog : list (node V W)) (elements : list nat)
         (cl : nat -> class) (evs : list (event W CUS)) (w : W) (n i : nat),
    sound_prog V W prog elements cl ->
    (forall m e c, ~ In (Customize m e c) evs) ->
    n < length prog -> In i elements ->
    exists v, denotes V W prog w i n v /\ access V W CUS apply prog elements evs w n i = Some v.
Proof. exact cache_transparent. Qed.
Print Assumptions C14_cache_transparent.

(** an object accessed in an element this core does not have: an exception, always *)
Theorem C14_other_element :
  forall (V W CUS : Type) (apply : CUS -> V -> option V) (prog : list (node V W)) (elements : list nat)
         (evs : list (event W CUS)) (w : W) (n i : nat),
    ~ In i elements -> access V W CUS apply prog elements evs w n i = None.
Proof. exact access_outside. Qed.
Print Assumptions C14_other_element.

(** constant, keyed, and world-dependent leaves; sums of them; a block matrix of them *)
Definition sum_ (l : list nat) : nat := fold_right Nat.add 0 l.
Definition ex_prog : list (node nat nat) :=
  [ Leaf (fun _ => CT) (fun _ _ => 5);
    Leaf (fun i => of_str (if Nat.even i then "even" else "odd+")%string) (fun _ i => if Nat.even i then 0 else 10);
    Leaf (fun _ => NC) (fun w i => 100 * w + i);
    Op KConcat sum_ [0; 1];
    Op KBlock sum_ [0; 0];
    Op KBlock sum_ [3; 4; 2];
    Op KFirstTwice sum_ [3; 0] ].
Definition ex_cl (n : nat) : class :=
  match n with 0 => Const | 1 => Keyed | 2 => NoCache | 3 => Keyed | 4 => Const | 5 => NoCache | _ => Keyed end.
Definition ex_elements := [0; 1; 2; 3].
Example C14_example_sound : sound_prog nat nat ex_prog ex_elements ex_cl.
Proof.
  intros n nd E.
  destruct n as [|[|[|[|[|[|[|n]]]]]]]; simpl in E; [..|destruct n; discriminate]; injection E as <-; simpl.
  - auto.
  - split; [exists 4; split; [lia|]; intros i _; destruct (Nat.even i); reflexivity|]. split.
    + intros i _. destruct (Nat.even i); simpl; intuition discriminate.
    + intros _ i _ j _ _. destruct (Nat.even i), (Nat.even j); simpl; intros E; congruence || discriminate.
  - intros i _. exists [], []. reflexivity.
  - split; [discriminate|]. split; [intros a H; lia|reflexivity].
  - split; [discriminate|]. split; [intros a H; lia|reflexivity].
  - split; [discriminate|]. split; [intros a H; lia|reflexivity].
  - split; [discriminate|]. split; [intros a H; lia|]. exists 3, 0. auto.
Qed.
Definition ex_history : list (event nat nat) :=
  [Access 1 5 0; Access 1 5 1; Access 2 3 1; Access 2 3 2; Access 3 4 0; Access 3 6 1; Access 3 6 0].
Example C14_example_values :
  map (fun n => map (access nat nat nat (fun c v => Some (c + v)) ex_prog ex_elements ex_history 7 n) ex_elements) [3; 4; 5; 6] =
  [ [Some 5; Some 15; Some 5; Some 15]; [Some 10; Some 10; Some 10; Some 10];
    [Some 715; Some 726; Some 717; Some 728]; [Some 10; Some 20; Some 10; Some 20] ].
Proof. vm_compute. reflexivity. Qed.
Example C14_example_no_customization : forall m e c, ~ In (Customize m e c) ex_history.
Proof. intros m e c H. simpl in H. intuition discriminate. Qed.
(** the caches are really used: after the history object 5 knows it must not cache, object 4 is constant *)
Example C14_example_caches :
  let h := run nat nat nat (fun c v => Some (c + v)) ex_prog ex_elements ex_history in
  is_nc _ _ (h 5) = true /\ is_ct _ _ (h 4) = true /\ length (cache _ _ (h 3)) = 2.
Proof. vm_compute. auto. Qed.

(** * C15: operators *)
(** Accessing a matrix or vector built by an operator gives the operator applied to what accessing the
    operands gives. *)
Theorem C15_operators :
  forall (V W CUS : Type) (apply : CUS -> V -> option V) (prog : list (node V W)) (elements : list nat)
         (cl : nat -> class) (evs : list (event W CUS)) (w : W) (n i : nat) st f args,
    sound_prog V W prog elements cl -> customizes_roots V W CUS prog evs ->
    nth_error prog n = Some (Op st f args) -> In i elements ->
    (forall e c, ~ In (Customize n e c) evs) ->
    exists vs, Forall2 (fun a v => access V W CUS apply prog elements evs w a i = Some v) args vs /\
               access V W CUS apply prog elements evs w n i = Some (f vs).
Proof. exact operators_ok. Qed.
Print Assumptions C15_operators.
Example C15_example :
  nth_error ex_prog 5 = Some (Op KBlock sum_ [3; 4; 2]) /\
  map (fun a => access nat nat nat (fun c v => Some (c + v)) ex_prog ex_elements ex_history 7 a 1) [3; 4; 2] = [Some 15; Some 10; Some 701] /\
  access nat nat nat (fun c v => Some (c + v)) ex_prog ex_elements ex_history 7 5 1 = Some 726.
Proof. vm_compute. auto. Qed.

(** Without one key length per object the concatenated keys of a sum are ambiguous: 'a' 'bc' and
    'ab' 'c'. Each operand alone is cached correctly; the sum returns the data of another element. *)
Theorem C15_ambiguous_keys_refuted :
  exists (prog : list (node nat nat)) (elements : list nat) (KG1 KG2 : nat -> key) (DG1 DG2 : nat -> nat -> nat)
         (evs : list (event nat nat)) (i v : nat),
    prog = [Leaf KG1 DG1; Leaf KG2 DG2; Op KConcat sum_ [0; 1]] /\
    (forall i j w w', In i elements -> In j elements -> KG1 i = KG1 j -> DG1 w i = DG1 w' j) /\
    (forall i j w w', In i elements -> In j elements -> KG2 i = KG2 j -> DG2 w i = DG2 w' j) /\
    In i elements /\ (forall m e c, ~ In (Customize m e c) evs) /\
    denotes nat nat prog 0 i 2 v /\
    access nat nat nat (fun _ x => Some x) prog elements evs 0 2 i <> Some v.
Proof. exact ambiguous_keys. Qed.
Print Assumptions C15_ambiguous_keys_refuted.

(** Customizing an operand: the negative of a constant matrix that was customized in element 0 returns
    element 0's customized data in element 1. *)
Theorem C15_customized_operand_refuted :
  exists (prog : list (node nat nat)) (elements : list nat) (cl : nat -> class) (evs : list (event nat nat)) (i v : nat),
    sound_prog nat nat prog elements cl /\ In i elements /\
    prog = [Leaf (fun _ => CT) (fun _ _ => 5); Op KConcat (fun l => 1000 - sum_ l) [0]] /\
    evs = [Customize 0 0 7; Access 0 1 0] /\
    access nat nat nat (fun c _ => Some c) prog elements evs 0 0 i = Some v /\
    access nat nat nat (fun c _ => Some c) prog elements evs 0 1 i <> Some (1000 - v).
Proof. exact customized_operand. Qed.
Print Assumptions C15_customized_operand_refuted.

(** * C16: sum and difference of vectors *)
(** columnVector/main.py gives the sum the first operand's key twice. If the second operand changes
    while the first does not, the sum goes stale. *)
Theorem C16_vector_sum_refuted :
  exists (prog : list (node nat nat)) (elements : list nat) (KG1 KG2 : nat -> key) (DG1 DG2 : nat -> nat -> nat)
         (evs : list (event nat nat)) (w i v : nat),
    prog = [Leaf KG1 DG1; Leaf KG2 DG2; Op KFirstTwice sum_ [0; 1]] /\
    leaf_sound nat nat elements KG1 DG1 Const /\ leaf_sound nat nat elements KG2 DG2 NoCache /\
    In i elements /\ (forall m e c, ~ In (Customize m e c) evs) /\
    denotes nat nat prog w i 2 v /\
    access nat nat nat (fun _ x => Some x) prog elements evs w 2 i <> Some v.
Proof. exact vector_sum_stale. Qed.
Print Assumptions C16_vector_sum_refuted.

(** ... and with two keyed operands it returns another element's data although nothing changes *)
Theorem C16_vector_sum_keyed_refuted :
  exists (prog : list (node nat nat)) (elements : list nat) (KG1 KG2 : nat -> key) (DG1 DG2 : nat -> nat -> nat)
         (evs : list (event nat nat)) (w i v : nat),
    prog = [Leaf KG1 DG1; Leaf KG2 DG2; Op KFirstTwice sum_ [0; 1]] /\
    leaf_sound nat nat elements KG1 DG1 Const /\ leaf_sound nat nat elements KG2 DG2 Keyed /\
    In i elements /\ (forall m e c, ~ In (Customize m e c) evs) /\
    denotes nat nat prog w i 2 v /\
    access nat nat nat (fun _ x => Some x) prog elements evs w 2 i <> Some v.
Proof. exact vector_sum_keyed. Qed.
Print Assumptions C16_vector_sum_keyed_refuted.

(** What does hold: the sum is right when the first operand is never cached or the second is constant.
    Missing: the other combinations, where it is false. *)
Theorem C16_vector_sum_partial :
  forall (V W CUS : Type) (apply : CUS -> V -> option V) (elements : list nat)
         (KG1 KG2 : nat -> key) (DG1 DG2 : W -> nat -> V) (f : list V -> V) (c1 c2 : class)
         (evs : list (event W CUS)) (w : W) (i : nat),
    leaf_sound V W elements KG1 DG1 c1 -> leaf_sound V W elements KG2 DG2 c2 ->
    c1 = NoCache \/ c2 = Const ->
    In i elements -> (forall m e c, ~ In (Customize m e c) evs) ->
    access V W CUS apply [Leaf KG1 DG1; Leaf KG2 DG2; Op KFirstTwice f [0; 1]] elements evs w 2 i = Some (f [DG1 w i; DG2 w i]).
Proof. exact vector_sum_ok. Qed.
Print Assumptions C16_vector_sum_partial.
Example C16_example :
  leaf_sound nat nat [0; 1] (fun _ => NC) (fun w i => w + i) NoCache /\ leaf_sound nat nat [0; 1] (fun _ => CT) (fun _ _ => 5) Const /\
  access nat nat nat (fun _ x => Some x) [Leaf (fun _ => NC) (fun w i => w + i); Leaf (fun _ => CT) (fun _ _ => 5); Op KFirstTwice sum_ [0; 1]]
    [0; 1] [Access 1 2 0; Access 2 2 1] 4 2 1 = Some 10.
Proof. split; [intros i _; exists [], []; reflexivity|]. vm_compute. auto. Qed.

(** * C17: customizations *)
(** Customizations act on the uncustomized data, in the order of registration, at every access; the
    cached data is never touched; clearing them restores the data. *)
Theorem C17_customizations :
  forall (V W CUS : Type) (apply : CUS -> V -> option V) (prog : list (node V W)) (elements : list nat)
         (cl : nat -> class) (evs : list (event W CUS)) (w : W) (n i : nat),
    sound_prog V W prog elements cl -> customizes_roots V W CUS prog evs ->
    n < length prog -> In i elements ->
    exists v, denotes V W prog w i n v /\
              access V W CUS apply prog elements evs w n i = apply_all V CUS apply (registered W CUS evs n i) v.
Proof. exact customizations_ok. Qed.
Print Assumptions C17_customizations.

Theorem C17_clear_restores :
  forall (V W CUS : Type) (apply : CUS -> V -> option V) (prog : list (node V W)) (elements : list nat)
         (cl : nat -> class) (evs : list (event W CUS)) (w : W) (n i : nat),
    sound_prog V W prog elements cl -> customizes_roots V W CUS prog evs ->
    n < length prog -> In i elements ->
    exists v, denotes V W prog w i n v /\
              access V W CUS apply prog elements (evs ++ [Clear n]) w n i = Some v.
Proof. exact clear_restores. Qed.
Print Assumptions C17_clear_restores.

Definition ex_history2 : list (event nat nat) :=
  [Access 1 5 0; Customize 5 1 1000; Access 1 5 1; Customize 6 1 1; Customize 5 1 2000; Access 3 6 0; Clear 6; Customize 6 0 50].
Example C17_example :
  customizes_roots nat nat nat ex_prog ex_history2 /\
  registered nat nat ex_history2 5 1 = [1000; 2000] /\ registered nat nat ex_history2 6 1 = [] /\
  map (access nat nat nat (fun c v => Some (c + 2 * v)) ex_prog ex_elements ex_history2 7 5) ex_elements = [Some 715; Some (2000 + 2 * (1000 + 2 * 726)); Some 717; Some 728] /\
  map (access nat nat nat (fun c v => Some (c + 2 * v)) ex_prog ex_elements ex_history2 7 6) ex_elements = [Some 70; Some 20; Some 10; Some 20].
Proof.
  split; [|vm_compute; auto].
  intros n e c H (m & st & f & args & E & I). unfold ex_history2 in H. simpl in H.
  assert (N : n = 5 \/ n = 6) by (repeat destruct H as [H|H]; try discriminate; try contradiction; injection H; auto).
  destruct m as [|[|[|[|[|[|[|m]]]]]]]; simpl in E; [..|destruct m; discriminate]; try discriminate; injection E as <- <- <-; simpl in I; lia.
Qed.

(** the vector customizer merges what is registered, keeping the last value of every index; that is the
    same as applying all of it one after the other *)
Theorem C17_vector_customizations :
  forall (T : Type) (zero : T) (evs : list (vevent T)) (x : lvec T) (e : nat),
    veq T (fst (vexecute T zero (fold_left (vstep T zero) evs ([], [])) x e)) (vapply_all T zero (vregistered T evs e) x).
Proof. exact vcus_ok. Qed.
Print Assumptions C17_vector_customizations.
Example C17_vector_example :
  let evs := [VCustomize nat 0 (slet 1 7); VCustomize nat 0 (cletr 2); VAccess nat 0; VCustomize nat 1 (slet 0 4);
              VCustomize nat 0 (slest [2; 1; 2] [5; 8; 6])] in
  match fst (vexecute nat 0 (fold_left (vstep nat 0) evs ([], [])) (mkV nat 4 (fun _ => 9)) 0) with
  | Some y => map (vent nat y) [0; 1; 2; 3] = [9; 8; 6; 9]
  | None => False
  end.
Proof. vm_compute. reflexivity. Qed.
