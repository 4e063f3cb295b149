(** Specification of global cochains. *)
From Coq Require Import List Arith QArith Qcanon Bool.
From Verif Require Import Prelude SpacingModel GatherModel CochainModel.
Import ListNotations.
Local Open Scope nat_scope.

(** [c]: the value of each dof; all local cochains have the values of their dofs *)
Definition agrees (gms : GMat) (locs : list lcoch) (c : nat -> Qc) : Prop :=
  length locs = length gms /\ forall r e v, In (e, v) (nth r gms []) -> lookup Nat.eqb e (nth r locs []) = Some (map c v).
(** dof d occurs in an element of core r *)
Definition on_core (gms : GMat) (r d : nat) : Prop := exists e v, In (e, v) (nth r gms []) /\ In d v.
(** new local cochains for exactly the elements of the cores, with the values c *)
Definition restored (gms : GMat) (c : nat -> Qc) (locs' : list lcoch) : Prop :=
  map (map fst) locs' = map (map fst) gms /\ forall r e v, In (e, v) (nth r gms []) -> In (e, map c v) (nth r locs' []).
(** the sum of the parts is c *)
Definition represents (K : nat) (ps : list part) (c : nat -> Qc) : Prop := forall d, d < K -> qsum (map (fun p => entry_of p d) ps) = c d.
(** a form with n dofs and the values c (zeros if it has no cochain); if it is a hybrid or volume form, no dof is on two cores *)
Definition sound (f : form) (n : nat) (c : nat -> Qc) : Prop := global_num_dofs (f_gm f) = Some n /\
  match f_local f with
  | Some locs => agrees (f_gm f) locs c /\ (f_whole f = true -> forall r r' d, on_core (f_gm f) r d -> on_core (f_gm f) r' d -> r = r')
  | None => forall d, c d = q0
  end.
