(** What the stop criteria and the Newton loop are supposed to do. *)
From Coq Require Import List Arith ZArith QArith Bool.
From Verif Require Import Prelude RingSum StopModel.
Import ListNotations.
Local Open Scope nat_scope.

(** a number (not nan) below the bound *)
Definition below (b : fl) (q : Q) : Prop := exists x, b = Some x /\ (x < q)%Q.
(** a number above another number *)
Definition above (a b : fl) : Prop := exists x y, a = Some x /\ b = Some y /\ (y < x)%Q.
(** the residual fell, from a positive start, by less than the fraction tol of the start *)
Definition stalled (b0 b : fl) (tol : Q) : Prop :=
  exists x0 x, b0 = Some x0 /\ b = Some x /\ (x < x0)%Q /\ ~ (x0 == 0)%Q /\ ((x0 - x) / x0 < tol)%Q.

(** the residual grew too much in one iteration *)
Definition diverges (prev cur : fl) : Prop :=
  exists x y, prev = Some x /\ cur = Some y /\ (x < y)%Q /\
    ((1 < x)%Q /\ (100 * x < y - x)%Q \/ (10000000 < y)%Q \/ (100 < y - x)%Q).
Definition newton_diverges (prev cur : fl) : Prop :=
  exists x y, prev = Some x /\ cur = Some y /\ (x < y)%Q /\
    ((1 < x)%Q /\ ((1 # 2) * x < y - x)%Q \/ (10000000 < y)%Q \/ (10 < y - x)%Q \/ (10 * x < y)%Q).
(** one iteration that grew, or fell by less than the fraction tol *)
Definition slow_step (tol : Q) (prev cur : fl) : bool :=
  match prev, cur with
  | Some x, Some y => Qltb x y || negb (Qeq_bool x 0) && Qltb ((x - y) / x) tol
  | _, _ => false
  end.

Section StopSpec.
  Variable beta : nat -> fl.
  Variables (tol atol : Q).
  (** how many of the last iterations the history remembers after k of them: all of the first 19, then 2 to 19 *)
  Definition remembered (k : nat) : nat := if k <? 20 then k else 2 + (k - 20) mod 18.
  (** the number of the last iterations inspected for slowness *)
  Definition window (k : nat) : nat := if 8 <? remembered k then 7 else remembered k.
  Definition slow_steps (k : nat) : nat :=
    length (filter (fun t => slow_step tol (beta t) (beta (S t))) (seq (k - window k) (window k))).
  (** reason j to stop after k iterations, for the int maxiter n *)
  Definition reason (n : Z) (k j : nat) : Prop :=
    match j with
    | 1 => below (beta k) atol
    | 2 => (n <= Z.of_nat k)%Z
    | 3 => 0 < k /\ diverges (beta (k - 1)) (beta k)
    | 4 => stalled (beta 0) (beta k) tol
    | 5 => 3 <= remembered k /\ (3 <= slow_steps k \/ window k <= 2 * slow_steps k)
    | _ => False
    end.
  Definition info_of (k j : nat) : Z := match j with 1 | 4 => 0%Z | 3 => (-1)%Z | _ => Z.of_nat k end.
  (** the run stops in the first iteration with a reason, for the first of its reasons *)
  Definition stops_at (n : Z) (k j : nat) (info : Z) : Prop :=
    reason n k j /\ (forall j', j' < j -> ~ reason n k j') /\ info = info_of k j /\
    forall k' j', k' < k -> ~ reason n k' j'.
End StopSpec.

Section NewtonSpec.
  Variable K : CRing.
  Variable correction : vec K -> list nat -> vec K.
  (** x_0 is the start vector with the prescribed values, x_(k+1) = x_k + correction; the first correction is taken
      at [first] *)
  Fixpoint iterate (fixed : list nat) (first start : vec K) (k : nat) : vec K :=
    match k with
    | O => start
    | S k' => vadd K (iterate fixed first start k') (correction (match k' with O => first | _ => iterate fixed first start k' end) fixed)
    end.
  (** the correction added in iteration k+1 *)
  Definition step_of (fixed : list nat) (first start : vec K) (k : nat) : vec K :=
    correction (match k with O => first | _ => iterate fixed first start k end) fixed.
  (** reason j to stop after k iterations, [norm] being the norm of the corrections *)
  Definition newton_reason (norm : nat -> fl) (atol : Q) (n : Z) (k j : nat) : Prop :=
    match j with
    | 1 => below (norm (k - 1)) atol
    | 2 => (n <= Z.of_nat k)%Z
    | 3 => 2 <= k /\ newton_diverges (norm (k - 2)) (norm (k - 1))
    | _ => False
    end.
  Definition newton_stops_at (norm : nat -> fl) (atol : Q) (n : Z) (k : nat) (info : Z) : Prop :=
    exists j, newton_reason norm atol n k j /\ (forall j', j' < j -> ~ newton_reason norm atol n k j') /\ info = info_of k j /\
    forall k' j', 1 <= k' < k -> ~ newton_reason norm atol n k' j'.
  (** the value prescribed last for a dof *)
  Fixpoint prescribed (cs : list (cust K)) (i : nat) (x : K) : K :=
    match cs with
    | [] => x
    | Guess _ j v :: cs' => prescribed cs' i (if i =? j then v else x)
    | _ :: cs' => prescribed cs' i x
    end.
End NewtonSpec.
