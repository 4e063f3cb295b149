(** What a time iteration with a constant step is supposed to produce. *)
From Coq Require Import List Arith ZArith Bool QArith.
From Verif Require Import Prelude IterModel.
Import ListNotations.
Local Open Scope nat_scope.

Section Spec.
  Variables T V : Type.
  Variable add : T -> T -> T.
  Variable solver : T -> T -> output V.
  Variables (t0 dt0 : T) (initial : V).
  Fixpoint time (i : nat) : T := match i with O => t0 | S i' => add (time i') dt0 end.
  (** the outputs of step i (the first step is 1) *)
  Definition outputs_of (i : nat) : output V := solver (time (i - 1)) (time i).
  Definition row_of (i : nat) : T * T * V := (time i, dt0, match i with O => initial | _ => values (outputs_of i) end).
  Definition table_to (n : nat) : list (nat * (T * T * V)) := map (fun i => (i, row_of i)) (seq 0 (S n)).
  (** step i does not ask to stop *)
  Definition goes_on (i : nat) : Prop := shut (outputs_of i) = SBool false /\ message_ok (outputs_of i) = true.
End Spec.

(** n is the least number of steps of size dt that reach [mt] from [t0] *)
Definition least_reaching (t0 dt mt : Q) (n : Z) : Prop :=
  (mt <= t0 + dt * inject_Z n)%Q /\ forall k : Z, (mt <= t0 + dt * inject_Z k)%Q -> (n <= k)%Z.
