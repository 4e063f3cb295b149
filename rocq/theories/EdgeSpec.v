(** Specification of where node and edge elements are. Of the models only the types of the data are used. *)
From Coq Require Import List Arith Bool Sorted.
From Verif Require Import Prelude SpaceSpec MeshMapModel TraceSpec EdgeModel.
Import ListNotations.

(** places in the order of elements, then of the cells of an element *)
Definition ploc_lt (q q' : nat * nat) : Prop := fst q < fst q' \/ (fst q = fst q' /\ snd q < snd q').
(** [ts]: the cells at the places of an element (the nodes or edges of the element as a box of one cell); [m]: the element map;
    [gm]: the node or edge elements at the places of every element. Element number t is on boundary b: one of the sides containing
    one of its places is beside b *)
Definition touches (ts : list ctype) (m : emap) (gm : list (nat * list nat)) (t b : nat) : Prop :=
  exists e i c ax up, entry gm e i t /\ nth_error (cells [1; 1; 1] ts) i = Some c /\ on_side [1; 1; 1] (ax, up) c = true /\
    entry m e (2 * ax + (if up then 1 else 0)) (Bd b).
(** the record of t is right: all its places, all elements containing it, all boundaries it is on, each once *)
Definition right_record (ts : list ctype) (m : emap) (gm : list (nat * list nat)) (t : nat) (r : prec) : Prop :=
  StronglySorted ploc_lt (places r) /\ (forall e i, In (e, i) (places r) <-> entry gm e i t) /\
  StronglySorted lt (shared r) /\ (forall e, In e (shared r) <-> exists i, entry gm e i t) /\
  NoDup (onb r) /\ (forall b, In b (onb r) <-> touches ts m gm t b).
(** at most n places *)
Definition at_most_places (gm : list (nat * list nat)) (n t : nat) : Prop := forall l : list (nat * nat), NoDup l -> (forall e i, In (e, i) l -> entry gm e i t) -> length l <= n.
(** a dof of an edge form: number i of the edge at place j of element e; D d dofs on an edge of direction d, four edges of each direction *)
Definition edge_dof (D : nat -> nat) (gm : list (nat * list nat)) (e j i d : nat) : Prop :=
  j < 12 /\ i < D (j / 4) /\ entry gm e (sum (map (fun k => D (k / 4)) (seq 0 j)) + i) d.
