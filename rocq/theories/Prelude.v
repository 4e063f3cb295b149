(** General list/sum facts used by all the proof files. Not a model of any /repo code. *)
From Coq Require Import List Arith ZArith Lia Bool Permutation.
From Coq Require Import ZifyBool.
Import ListNotations.


(** [sum l] is python's [sum(l)]. *)
Definition sum (l : list nat) : nat := fold_right Nat.add 0 l.

(** [range a b] is python's [range(a, b)] as a list. *)
Definition range (a b : nat) : list nat := seq a (b - a).

(** Python dict lookup: the dict is the list of its (key, value) items. *)
Fixpoint lookup {K V} (eqb : K -> K -> bool) (k : K) (d : list (K * V)) : option V :=
  match d with
  | [] => None
  | (k', v) :: d' => if eqb k k' then Some v else lookup eqb k d'
  end.

(** [update l i v] is the python list assignment [l[i] = v] for 0 <= i < len(l). *)
Fixpoint update {A} (l : list A) (i : nat) (v : A) : list A :=
  match l, i with
  | [], _ => []
  | _ :: l', 0 => v :: l'
  | x :: l', S i' => x :: update l' i' v
  end.

(** [list.index(True)] *)
Fixpoint index_true (l : list bool) : option nat :=
  match l with
  | [] => None
  | true :: _ => Some 0
  | false :: l' => option_map S (index_true l')
  end.

(** [first_index p l]: position of the first element satisfying [p]. *)
Fixpoint first_index {A} (p : A -> bool) (l : list A) : option nat :=
  match l with
  | [] => None
  | x :: l' => if p x then Some 0 else option_map S (first_index p l')
  end.

(** maximum of a list of naturals, 0 if empty. *)
Definition maxl (l : list nat) : nat := fold_right Nat.max 0 l.

(** reflexive transitive closure *)
Inductive star {C} (R : C -> C -> Prop) : C -> C -> Prop :=
| star_refl c : star R c c
| star_snoc a b c : star R a b -> R b c -> star R a c.

(** exactly n steps *)
Inductive nsteps {C} (R : C -> C -> Prop) : nat -> C -> C -> Prop :=
| ns_0 c : nsteps R 0 c c
| ns_S n a b c : nsteps R n a b -> R b c -> nsteps R (S n) a c.

