(** Specification of trace elements: the table of a map of elements to rows of entries, and what a trace element is.
    Of TraceModel only the types of the data (maps, records) are used. *)
From Coq Require Import List Arith.
From Verif Require Import Prelude MeshSpec SpaceModel MeshModel MeshMapModel TraceModel.
Import ListNotations.

(** the entry of element e at place j of a table of rows is x *)
Definition entry {A} (m : list (nat * list A)) (e j : nat) (x : A) : Prop := exists row, In (e, row) m /\ nth_error row j = Some x.
(** how many of the faces numbered below t have normal axis ax ([axis]: the axis of every face) *)
Definition faces_before (axis : nat -> nat) (ax t : nat) : nat := length (filter (fun u => axis u =? ax) (seq 0 t)).
(** an element beside itself is so through a pair of periodic sides *)
Definition selfp (m : emap) (up : list epair) : Prop :=
  forall e j, entry m e j (El e) -> In (e, side_of j, side_of (facing j), e) up \/ In (e, side_of (facing j), side_of j, e) up.
(** [mu]: the element map of a core and its periodic pairs; [tab]: the trace elements of its sides; r describes trace element t *)
Definition good_record (mu : emap * list epair) (tab : list (nat * list nat)) (t : nat) (r : tel) : Prop :=
  exists e j x, entry (fst mu) e j x /\ entry tab e j t /\ cp r = (e, j) /\
  match x with
  | Bd b => p1 r = Side e j /\ p2 r = OnB b /\ ondb r = true /\ onpb r = false
  | El f => ondb r = false /\ (onpb r = true <-> In (e, side_of j, side_of (facing j), f) (snd mu) \/ In (f, side_of (facing j), side_of j, e) (snd mu)) /\
      ((p1 r = Side e j /\ p2 r = Side f (facing j) /\ e <= f) \/ (p1 r = Side f (facing j) /\ p2 r = Side e j /\ f < e /\ ~ In f (map fst (fst mu))))
  end.
(** the result of a core: a row of six trace elements for each of its elements, and one record for each trace element there *)
Definition good_core (mu : emap * list epair) (o : list (nat * tel) * list (nat * list nat)) : Prop :=
  map fst (snd o) = map fst (fst mu) /\ (forall e row, In (e, row) (snd o) -> length row = 6) /\
  NoDup (map fst (fst o)) /\ (forall t, In t (map fst (fst o)) <-> exists e j, entry (snd o) e j t) /\
  forall t r, In (t, r) (fst o) -> good_record mu (snd o) t r.
(** dof i of side j of element e, in a gathering matrix with the sides one after the other, nbo (j / 2) dofs on side j *)
Definition side_dof (nbo : nat -> nat) (gm : list (nat * list nat)) (e j i d : nat) : Prop :=
  j < 6 /\ i < nbo (j / 2) /\ entry gm e (sum (map (fun k => nbo (k / 2)) (seq 0 j)) + i) d.
