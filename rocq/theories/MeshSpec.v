(** Specification for MeshModel: what a numbering of the elements of a region and a distribution over cores should be. *)
From Coq Require Import List Arith.
From Verif Require Import Prelude.
Import ListNotations.

(** f numbers the indices below s by start .. start + n - 1, one to one *)
Definition bijective (s : list nat) (start n : nat) (f : list nat -> nat) : Prop :=
  (forall i, Forall2 lt i s -> start <= f i < start + n) /\
  (forall k, start <= k < start + n -> exists i, Forall2 lt i s /\ f i = k) /\
  (forall i j, Forall2 lt i s -> Forall2 lt j s -> f i = f j -> i = j).
(** increasing an index along any axis increases the number *)
Definition increasing (s : list nat) (f : list nat -> nat) : Prop :=
  forall i j, Forall2 lt i s -> Forall2 lt j s -> Forall2 le i j -> i <> j -> f i < f j.

(** consecutive ranges, one per core, covering 0 .. n - 1 *)
Definition partition (SIZE n : nat) (rs : list (list nat)) : Prop := length rs = SIZE /\ concat rs = seq 0 n.
(** element e is one of region r, if the regions have [cnt] elements numbered one after the other *)
Definition in_region (cnt : list nat) (r e : nat) : Prop := sum (firstn r cnt) <= e < sum (firstn (S r) cnt).
(** core c has an element of region r *)
Definition visits (rs : list (list nat)) (cnt : list nat) (c r : nat) : Prop :=
  exists l e, nth_error rs c = Some l /\ In e l /\ in_region cnt r e.
(** the side of a region or element facing side i: N S | W E | B F are 0 1 | 2 3 | 4 5 *)
Definition facing (i : nat) : nat := if Nat.even i then i + 1 else i - 1.
(** index y is x moved by one up or down; x is the last or first index of an axis of length n *)
Definition moved (up : bool) (x y : nat) : Prop := if up then y = x + 1 else x = y + 1.
Definition extreme (up : bool) (n x : nat) : Prop := if up then x + 1 = n else x = 0.
(** the place (r', idx') is beside the place (r, idx) in direction (ax, up): inside the region, or in the region attached to
    that side of the region ([att r side r']), at its facing end, the other indices unchanged *)
Inductive next_to (lays : list (list nat)) (att : nat -> nat -> nat -> Prop) (r : nat) (idx : list nat) (ax : nat) (up : bool) : nat -> list nat -> Prop :=
| inside idx' : length idx' = length idx -> moved up (nth ax idx 0) (nth ax idx' 0) -> (forall a, a <> ax -> nth a idx' 0 = nth a idx 0) ->
    next_to lays att r idx ax up r idx'
| across r' idx' : extreme up (nth ax (nth r lays []) 0) (nth ax idx 0) -> att r (2 * ax + (if up then 1 else 0)) r' ->
    length idx' = length idx -> extreme (negb up) (nth ax (nth r' lays []) 0) (nth ax idx' 0) ->
    (forall a, a <> ax -> nth a idx' 0 = nth a idx 0) -> next_to lays att r idx ax up r' idx'.
