(** Specification vocabulary for C10-C13. *)
From Coq Require Import List Arith Bool.
From Coq Require String.
Import (notations) String.
From Verif Require Import Prelude GatherModel.
Import ListNotations.

(** the number occurs somewhere in the gathering matrix *)
Definition occurs (g : GMat) (d : nat) : Prop :=
  exists r e v, gv_of g r e = Some v /\ In d v.

(** [gms] are gathering matrices on the same mesh distributed over SIZE cores, matrix number j
    numbering its dofs 0, ..., ns[j]-1. *)
Record well_numbered (SIZE : nat) (gms : list GMat) (ns : list nat) : Prop := {
  wn_some : gms <> [];
  wn_len : length ns = length gms;
  wn_size : forall g, In g gms -> length g = SIZE;
  wn_keys : forall g r, In g gms -> NoDup (elements g r);
  wn_elem : forall g g' r e, In g gms -> In g' gms -> In e (elements g r) -> In e (elements g' r);
  wn_nonempty : forall g r e v, In g gms -> gv_of g r e = Some v -> v <> [];
  wn_dofs : forall j g n, nth_error gms j = Some g -> nth_error ns j = Some n ->
            0 < n /\ forall d, occurs g d <-> d < n }.

(** the local vectors of element e, one per matrix *)
Definition local_vectors (gms : list GMat) (r e : nat) : list GV :=
  map (fun g => match gv_of g r e with Some v => v | None => [] end) gms.

(** the vectors of matrix g in the order in which the cores visit the elements of g0 *)
Definition visited (SIZE : nat) (g0 g : GMat) : list GV :=
  flat_map (fun r => map (fun e => match gv_of g r e with Some v => v | None => [] end) (elements g0 r))
           (seq 0 SIZE).

(** In visiting order every element introduces the next free numbers, each once. *)
Definition first_come_numbering (vs : list GV) : Prop :=
  (forall pre post, vs = pre ++ post -> exists k, forall d, In d (concat pre) <-> d < k) /\
  (forall pre v post, vs = pre ++ v :: post ->
     NoDup (filter (fun d => negb (existsb (Nat.eqb d) (concat pre))) v)).

(** vectors of one matrix all have one length (checked by the constructor of Gathering_Matrix) *)
Definition regular (g : GMat) : Prop :=
  exists L, forall r e v, gv_of g r e = Some v -> length v = L.

(** x occurs in l for the first time at position i *)
Definition first_at (l : list nat) (i x : nat) : Prop :=
  nth_error l i = Some x /\ forall i', i' < i -> nth_error l i' <> Some x.

Definition methods : list String.string := ["silly"%string; "sequent"%string].

(** the caches of chained matrices that histories of requests can produce (any other method raises,
    chain_matrix/main.py:187, before anything is cached) *)
Inductive reachable {Obj} (stamp : Obj -> String.string) : list (String.string * cgm Obj) -> Prop :=
| reach_nil : reachable stamp []
| reach_call cache gms m : reachable stamp cache -> In m methods -> reachable stamp (snd (chaining_call Obj stamp cache gms m)).

(** the objects alive at a request: its own and those held by the cached chained matrices *)
Definition live {Obj} (cache : list (String.string * cgm Obj)) (gms : list Obj) : list Obj :=
  gms ++ flat_map (fun kc => built_from Obj (snd kc)) cache.

(** stamps tell the objects apart and are equally long *)
Definition distinct_stamps {Obj} (stamp : Obj -> String.string) (objs : list Obj) (L : nat) : Prop :=
  0 < L /\ (forall o, In o objs -> String.length (stamp o) = L) /\
  (forall o o', In o objs -> In o' objs -> stamp o = stamp o' -> o = o').

