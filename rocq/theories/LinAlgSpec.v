(** Specification vocabulary for C25-C28. *)
From Coq Require Import List Arith Bool.
From Verif Require Import Prelude RingSum AssembleModel LinAlgModel.
Import ListNotations.

Section Spec.
  Variable K : CRing.
  (** the matrix (vector) represented by its parts *)
  Definition total (SIZE : nat) (p : nat -> nat -> nat -> K) (i j : nat) : K := bsum (seq 0 SIZE) (fun r => p r i j).
  Definition vtotal (SIZE : nat) (p : nat -> nat -> K) (i : nat) : K := bsum (seq 0 SIZE) (fun r => p r i).
  (** entry (i, j) is stored *)
  Definition stored (M : sparse K) (i j : nat) : Prop :=
    match M with
    | CSR _ _ rows => In j (map fst (nth i rows []))
    | CSC _ _ cols => In i (map fst (nth j cols []))
    | Dense _ _ => False
    end.
  Definition disjoint_rows (SIZE : nat) (p : nat -> sparse K) : Prop :=
    forall r s i j j', r < SIZE -> s < SIZE -> stored (p r) i j -> stored (p s) i j' -> r = s.
  Definition disjoint_columns (SIZE : nat) (p : nat -> sparse K) : Prop :=
    forall r s i i' j, r < SIZE -> s < SIZE -> stored (p r) i j -> stored (p s) i' j -> r = s.
  (** column indices of a csr matrix in range *)
  Definition csr_ok (n : nat) (M : sparse K) : Prop :=
    match M with CSR _ nc rows => nc = n /\ forall row p, In row rows -> In p row -> fst p < n | _ => False end.
End Spec.
