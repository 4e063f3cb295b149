(** What the linear solvers are supposed to do. *)
From Coq Require Import List Arith Bool.
From Verif Require Import Prelude RingSum KrylovModel.
Import ListNotations.

Section KrylovSpec.
  Variable K : CRing.
  Variable div : K -> K -> K.
  Local Open Scope ring_s.
  Notation vec := (nat -> K).
  Notation mat := (nat -> nat -> K).

  (** the assembled matrix and vector of a distributed one *)
  Definition whole_A (SIZE : nat) (A : nat -> mat) : mat := fun i j => bsum (seq 0 SIZE) (fun r => A r i j).
  Definition whole_f (SIZE : nat) (f : nat -> vec) : vec := fun i => bsum (seq 0 SIZE) (fun r => f r i).
  Definition residual (n : nat) (A : mat) (b x : vec) : vec := fun i => b i - mulv K n A x i.

  (** * BiCGSTAB as in the textbook, with the shadow residual of iteration k+1 given by [shadow k] *)
  Record tb := mkTB { tx : vec; tr : vec; tp : vec; tv : vec; trho : K; talpha : K; tomega : K }.
  Section Textbook.
    Variables (n : nat) (A : mat) (b x0 : vec) (shadow : nat -> vec).
    Definition tb_start : tb := mkTB x0 (residual n A b x0) (fun _ => 0) (fun _ => 0) 1 1 1.
    Definition tb_step (sh : vec) (s : tb) : tb :=
      let rho := dot K n sh (tr s) in
      let beta := div rho (trho s) * div (talpha s) (tomega s) in
      let p := fun i => tr s i + beta * (tp s i - tomega s * tv s i) in
      let v := mulv K n A p in
      let al := div rho (dot K n sh v) in
      let sv := fun i => tr s i - al * v i in
      let t := mulv K n A sv in
      let om := div (dot K n t sv) (dot K n t t) in
      mkTB (fun i => tx s i + (al * p i + om * sv i)) (fun i => sv i - om * t i) p v rho al om.
    Fixpoint textbook (k : nat) : tb := match k with O => tb_start | S k' => tb_step (shadow k') (textbook k') end.
    (** the shadow residual of the textbook, and the one the code ends up with *)
    Definition first_residual (k : nat) : vec := residual n A b x0.
    Definition overwritten (k : nat) : vec :=
      match k with O => residual n A b x0 | S _ => residual n A b (tx (tb_step (residual n A b x0) tb_start)) end.
  End Textbook.

  (** * the Hessenberg entry (i,j) belongs to one core: the subdiagonal to the master, row i to core i mod SIZE *)
  Definition owner (SIZE i j : nat) : nat := if (i =? S j)%nat then 0%nat else i mod SIZE.
  Definition only_owners (SIZE : nat) (H : nat -> mat) : Prop :=
    forall r i j, (r < SIZE)%nat -> r <> owner SIZE i j -> H r i j = 0.

  (** * the assembled block system [M B; C D] [u; y] = [g; h]; G1 and G2 are the gathering vectors of the two groups *)
  Definition solves_blocks (ne : nat) (p q : nat -> nat) (M B C D : nat -> mat) (g h : nat -> vec) (G1 G2 : nat -> nat -> nat) (u y : vec) : Prop :=
    (forall I, bsum (seq 0 ne) (fun e => bsum (seq 0 (p e)) (fun i => if (G1 e i =? I)%nat then
        bsum (seq 0 (p e)) (fun j => M e i j * u (G1 e j)) + bsum (seq 0 (q e)) (fun j => B e i j * y (G2 e j)) else 0)) =
      bsum (seq 0 ne) (fun e => bsum (seq 0 (p e)) (fun i => if (G1 e i =? I)%nat then g e i else 0))) /\
    (forall I, bsum (seq 0 ne) (fun e => bsum (seq 0 (q e)) (fun i => if (G2 e i =? I)%nat then
        bsum (seq 0 (p e)) (fun j => C e i j * u (G1 e j)) + bsum (seq 0 (q e)) (fun j => D e i j * y (G2 e j)) else 0)) =
      bsum (seq 0 ne) (fun e => bsum (seq 0 (q e)) (fun i => if (G2 e i =? I)%nat then h e i else 0))).
  Definition inverse_of (n : nat) (X Y : mat) : Prop := forall i j, (i < n)%nat -> (j < n)%nat ->
    mmul K n X Y i j = (if (i =? j)%nat then 1 else 0) /\ mmul K n Y X i j = (if (i =? j)%nat then 1 else 0).
  Definition solves (n : nat) (A : mat) (b x : vec) : Prop := forall i, (i < n)%nat -> mulv K n A x i = b i.
End KrylovSpec.
