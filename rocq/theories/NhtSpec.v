(** Specification of non-hybrid trace numberings: the numbers of the cells on the surfaces of the elements. *)
From Coq Require Import List Arith ZArith.
From Verif Require Import Prelude SpaceSpec NumSpec TraceSpec.
Import ListNotations.

(** L: the local gathering, one list for every side; the number given by gm to cell x on the surface of element e is d *)
Definition trace_dof (p : list nat) (ts : list ctype) (L : list (list Z)) (gm : list (nat * list Z)) (e : nat) (x : cell) (d : nat) : Prop :=
  exists v j s l a i, In (e, v) gm /\ nth_error sides3 j = Some s /\ nth_error L j = Some l /\ nth_error (filter (on_side p s) (cells p ts)) a = Some x /\
    nth_error l a = Some (Z.of_nat i) /\ nth_error v i = Some (Z.of_nat d).
(** gm has all cells on the surfaces of N elements, and exactly those with the same number in sf have the same number, 0 .. n - 1 *)
Definition restriction (p : list nat) (ts : list ctype) (N : nat) (L : list (list Z)) (sf : list (nat * list nat)) (gm : list (nat * list Z)) (n : nat) : Prop :=
  map fst gm = seq 0 N /\ (forall e v, In (e, v) gm -> length v = length (filter (on_surface p) (cells p ts))) /\
  (forall e x, e < N -> In x (cells p ts) -> on_surface p x = true -> exists d, trace_dof p ts L gm e x d) /\
  (forall e x d f y d' m m', trace_dof p ts L gm e x d -> trace_dof p ts L gm f y d' -> numbered p ts sf (e, x) m -> numbered p ts sf (f, y) m' -> (d = d' <-> m = m')) /\
  (forall d, d < n <-> exists e x, trace_dof p ts L gm e x d).
(** the vector of every trace element of a core (tm: the trace elements of its elements) has the numbers of the cells on all sides that are this trace element *)
Definition on_traces (p : list nat) (ts : list ctype) (L : list (list Z)) (gm : list (nat * list Z)) (tm : list (nat * list nat)) (tew : list (nat * list Z)) : Prop :=
  NoDup (map fst tew) /\ (forall t, In t (map fst tew) <-> exists e j, entry tm e j t) /\
  forall t v e j s, In (t, v) tew -> entry tm e j t -> nth_error sides3 j = Some s ->
    length v = length (filter (on_side p s) (cells p ts)) /\
    forall a x d, nth_error (filter (on_side p s) (cells p ts)) a = Some x -> (nth_error v a = Some (Z.of_nat d) <-> trace_dof p ts L gm e x d).
(** sides which are the same trace element (T: trace elements of all elements) have the same axis, and the same dofs in the same order *)
Definition joined (p : list nat) (ts : list ctype) (sf : list (nat * list nat)) (T : list (nat * list nat)) : Prop :=
  forall t e j f i s r, entry T e j t -> entry T f i t -> nth_error sides3 j = Some s -> nth_error sides3 i = Some r -> fst s = fst r /\
  forall a x y m m', nth_error (filter (on_side p s) (cells p ts)) a = Some x -> nth_error (filter (on_side p r) (cells p ts)) a = Some y ->
    numbered p ts sf (e, x) m -> numbered p ts sf (f, y) m' -> m = m'.
(** n different numbers occur in gm *)
Definition dofs_here (p : list nat) (ts : list ctype) (L : list (list Z)) (gm : list (nat * list Z)) (n : nat) : Prop :=
  exists l, NoDup l /\ length l = n /\ forall d, In d l <-> exists e x, trace_dof p ts L gm e x d.
