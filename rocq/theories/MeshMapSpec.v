(** Specification of places of elements and of what is beside a side of a region. *)
From Coq Require Import List Arith Bool.
From Verif Require Import Prelude SpaceModel MeshSpec.
Import ListNotations.

(** element e is at index idx of region r ([num r]: the numbering of region r; [lays]: the layouts) *)
Definition located (num : nat -> option (arr nat)) (lays : list (list nat)) (e r : nat) (idx : list nat) : Prop :=
  exists lay a, nth_error lays r = Some lay /\ num r = Some a /\ Forall2 lt idx lay /\ at_ a idx = e.
(** region r' is beside side i of region r, not through a periodic boundary ([rm]: what each side of each region is beside) *)
Definition att (rm : nat -> nat -> option nat) (bnames : list nat) (r i r' : nat) : Prop := rm r i = Some r' /\ ~ In r' bnames.
(** the two region sides of a pair, sides (axis, up) numbered as N S | W E | B F *)
Definition psides (p : (nat * (nat * bool)) * (nat * (nat * bool))) : list (nat * nat) :=
  [(fst (fst p), 2 * fst (snd (fst p)) + (if snd (snd (fst p)) then 1 else 0)); (fst (snd p), 2 * fst (snd (snd p)) + (if snd (snd (snd p)) then 1 else 0))].
(** region r' is beside side i of region r, through a pair of periodic region sides or directly *)
Definition att_periodic (rm : nat -> nat -> option nat) (bnames : list nat) (pairs : list ((nat * (nat * bool)) * (nat * (nat * bool)))) (r i r' : nat) : Prop :=
  (exists p, In p pairs /\ (psides p = [(r, i); (r', facing i)] \/ psides p = [(r', facing i); (r, i)])) \/
  ((forall p, In p pairs -> ~ In (r, i) (psides p)) /\ att rm bnames r i r').
(** the boundaries that side i of region r is given to *)
Definition at_side (bsides : list (nat * (nat * nat))) (r i : nat) : list nat := map fst (filter (fun x => (fst (snd x) =? r) && (snd (snd x) =? i)) bsides).
(** the corners of side i of a region: corner k is at the end (bit a of k) of each axis a; side i is the end (i mod 2) of axis i / 2 *)
Definition side_points (corner : nat -> nat -> nat) (r i : nat) : list nat :=
  map (corner r) (filter (fun k => Bool.eqb (Nat.testbit k (i / 2)) (Nat.odd i)) (seq 0 8)).
(** region n is another one with a side coinciding with side i of region r *)
Definition sharing (corner : nat -> nat -> nat) (nrs r i n : nat) : Prop :=
  n < nrs /\ n <> r /\ exists ii, ii < 6 /\ side_points corner r i = side_points corner n ii.
