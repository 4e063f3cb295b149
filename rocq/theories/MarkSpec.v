(* What metric types have to be. *)
From Coq Require Import Reals List ZArith.
From Verif Require Import TfiModel CtModel MarkModel.
Import ListNotations.
Open Scope R_scope.

(* printing to k decimals, to a nearest one *)
Definition prints (fmt : fmt_t) : Prop := forall k x, Rabs (IZR (fmt k x) - x * 10 ^ k) <= / 2.
(* a multiple of 10 ^ -k *)
Definition on_grid (k : nat) (x : R) : Prop := exists n, x * 10 ^ k = IZR n.
Definition close (d : R) (a b : R * R * R) : Prop :=
  match a, b with (x, y, z), (x', y', z') => Rabs (x - x') <= d /\ Rabs (y - y') <= d /\ Rabs (z - z') <= d end.
Definition all_grid (k : nat) (a : R * R * R) : Prop :=
  match a with (x, y, z) => on_grid k x /\ on_grid k y /\ on_grid k z end.
(* equal marks that are not ids mean equal values *)
Definition faithful {V} (mk : nat -> mark) (val : nat -> V) (elems : list nat) : Prop :=
  forall i j, In i elems -> In j elems -> mk i = mk j -> (forall k, mk i <> mId k) -> val i = val j.
(* the Jacobian matrix of an element of a mesh with regions of both kinds: m is
   the matrix of its region *)
Definition region_fits (t : rtype) (m : R -> R -> R -> mat3) : Prop :=
  match t with rChaotic => True | rOrth l => forall r s t, m r s t = box_J l r s t end.
Definition orth_lengths (t : rtype) (e : Elem) (P : R * R * R -> Prop) : Prop :=
  match t with rChaotic => True | rOrth l => P (lengths l (e_d e)) end.

(* of a side: the sizes along it, in the order of its mark *)
Definition sizes2 (s : tside) (d : R * R * R) : R * R :=
  match d with (x, y, z) => match s with tN | tS => (y, z) | tW | tE => (z, x) | tB | tF => (x, y) end end.
