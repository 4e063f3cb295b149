(** Specification vocabulary for C14-C17. *)
From Coq Require Import List Arith Bool.
From Coq Require Ascii String.
Import (notations) String.
From Coq Require Import Ascii.
From Verif Require Import Prelude EwcModel.
Import ListNotations.

Section Spec.
  Variables V W CUS : Type.
  Variable apply : CUS -> V -> option V.
  Variable prog : list (node V W).
  Variable elements : list nat.

  (** what object n is, element-wise, without any cache: generators and operators applied *)
  Inductive denotes (w : W) (i : nat) : nat -> V -> Prop :=
  | den_leaf n KG DG : nth_error prog n = Some (Leaf KG DG) -> denotes w i n (DG w i)
  | den_op n st f args vs : nth_error prog n = Some (Op st f args) ->
      Forall2 (denotes w i) args vs -> denotes w i n (f vs).

  (** three kinds of objects: the same data everywhere, data to be recomputed, data identified by a key *)
  Inductive class := Const | NoCache | Keyed.

  (** Soundness of the generators of a leaf. '>CT<' is only used for constant data, '>NC<' appears in
      the keys of data depending on the world, other keys have one length, no angle brackets, and
      identify the data. *)
  Definition leaf_sound (KG : nat -> key) (DG : W -> nat -> V) (c : class) : Prop :=
    match c with
    | Const => (forall i, In i elements -> KG i = CT) /\
               (forall w i w' j, In i elements -> In j elements -> DG w i = DG w' j)
    | NoCache => forall i, In i elements -> exists a b, KG i = a ++ NC ++ b
    | Keyed => (exists L, 0 < L /\ forall i, In i elements -> length (KG i) = L) /\
               (forall i, In i elements -> ~ In "<"%char (KG i) /\ ~ In ">"%char (KG i)) /\
               (forall w i w' j, In i elements -> In j elements -> KG i = KG j -> DG w i = DG w' j)
    end.

  Definition is_NoCache (c : class) : bool := match c with NoCache => true | _ => false end.
  Definition is_Const (c : class) : bool := match c with Const => true | _ => false end.
  Definition join (cs : list class) : class :=
    if existsb is_NoCache cs then NoCache
    else if forallb is_Const cs then Const
    else Keyed.

  (** [cl n] is the kind of object n. Operators have operands created before. The vector sum and
      difference, whose key repeats the first operand's, are only allowed when that is harmless. *)
  Definition sound_prog (cl : nat -> class) : Prop :=
    forall n nd, nth_error prog n = Some nd ->
    match nd with
    | Leaf KG DG => leaf_sound KG DG (cl n)
    | Op st f args =>
        args <> [] /\ (forall a, In a args -> a < n) /\
        match st with
        | KFirstTwice => exists a b, args = [a; b] /\ cl n = cl a /\ (cl a = NoCache \/ cl b = Const \/ a = b)
        | _ => cl n = join (map cl args)
        end
    end.

  (** object m is an operand of another object *)
  Definition operand (m : nat) : Prop := exists n st f args, nth_error prog n = Some (Op st f args) /\ In m args.

  (** only objects that are not operands get customized *)
  Definition customizes_roots (evs : list (event W CUS)) : Prop :=
    forall n e c, In (Customize n e c) evs -> ~ operand n.

  (** the customizations of element e of object n registered since the last clear, in order *)
  Definition registered (evs : list (event W CUS)) (n e : nat) : list CUS :=
    fold_left (fun acc ev =>
      match ev with
      | Customize n' e' c => if (n' =? n) && (e' =? e) then acc ++ [c] else acc
      | Clear n' => if n' =? n then [] else acc
      | Access _ _ _ => acc
      end) evs [].
End Spec.
