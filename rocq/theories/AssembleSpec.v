(** Specification vocabulary for C07-C09: what "assembled" means, without reference to the loops. *)
From Coq Require Import List Arith ZArith Bool.
From Verif Require Import Prelude RingSum.
Import ListNotations.

(** the dofs are exactly 0, ..., n-1, and no row is empty *)
Definition numbers_0_to (rows : list (list Z)) (n : Z) : Prop :=
  (0 < n)%Z /\ (forall g, In g rows -> g <> []) /\
  forall z, In z (concat rows) <-> (0 <= z < n)%Z.

Section Spec.
  Context {Key : Type} (keqb : Key -> Key -> bool) {K : CRing}.

  (** every key has a data array of the right length, and there are no other data *)
  Definition data_for (G : list (Key * list Z)) (D : list (Key * list K)) : Prop :=
    length D = length G /\
    forall k g, In (k, g) G -> exists v, lookup keqb k D = Some v /\ length v = length g.

  (** the data array of a key *)
  Definition data_of {B} (D : list (Key * list B)) (k : Key) : list B :=
    match lookup keqb k D with Some v => v | None => [] end.

  (** the values written, in order *)
  Definition writes (G : list (Key * list Z)) (D : list (Key * list K)) : list (Z * K) :=
    flat_map (fun kg => combine (snd kg) (data_of D (fst kg))) G.

  (** shapes of the blocks *)
  Definition blocks_for (G0 G1 : list (Key * list Z)) (D : list (Key * list (list K))) : Prop :=
    length G1 = length G0 /\ length D = length G0 /\
    forall k g0, In (k, g0) G0 -> exists g1 B, lookup keqb k G1 = Some g1 /\ lookup keqb k D = Some B /\
      length B = length g0 /\ forall row, In row B -> length row = length g1.

End Spec.

Section Contrib.
  Context {K : CRing}.

  (** contribution of one key to dof [z] *)
  Definition contrib (g : list Z) (v : list K) (z : Z) : K :=
    bsum (combine g v) (fun p => if (fst p =? z)%Z then snd p else r0).

  (** contribution of one block to entry (r, c) *)
  Definition mcontrib (g0 g1 : list Z) (B : list (list K)) (r c : Z) : K :=
    bsum (combine g0 B) (fun p => if (fst p =? r)%Z
      then bsum (combine g1 (snd p)) (fun q => if (fst q =? c)%Z then snd q else r0) else r0).

End Contrib.
