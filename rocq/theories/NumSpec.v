(** Specification of conforming numberings: two cells of two elements are one and the same if they are glued over element sides. *)
From Coq Require Import List Arith Bool Relations.
From Verif Require Import Prelude SpaceSpec MeshSpec MeshMapModel MeshMapSpec.
Import ListNotations.

(** the types of the cells of the dofs in d dimensions: nodes; edges, by direction; faces, by normal direction
    (for d = 2 the latter are the edges of an outer 1-form) *)
Definition node_types (d : nat) : list ctype := [repeat false d].
Definition edge_types (d : nat) : list ctype := map (fun c => map (fun a => a =? c) (seq 0 d)) (seq 0 d).
Definition face_types (d : nat) : list ctype := map (fun c => map (fun a => negb (a =? c)) (seq 0 d)) (seq 0 d).
Example types_dim3 : node_types 3 = nodes3 /\ edge_types 3 = edges3 /\ face_types 3 = faces3. Proof. repeat split. Qed.
Example types_dim2 : node_types 2 = nodes2 /\ edge_types 2 = edges2_inner /\ face_types 2 = edges2_outer. Proof. repeat split. Qed.

(** cell x of an element with degrees p, and cell y of the element beside its side (ax, up), coincide *)
Definition touching (p : list nat) (ax : nat) (up : bool) (x y : cell) : Prop :=
  nth_error x ax = Some (false, if up then nth ax p 0 else 0) /\
  nth_error y ax = Some (false, if up then 0 else nth ax p 0) /\
  forall a, a <> ax -> nth_error x a = nth_error y a.
(** element maps: what is beside the sides (ax, up) of the elements *)
Definition nbr_of (L : emap) (e ax : nat) (up : bool) (f : nat) : Prop := exists row, In (e, row) L /\ nth_error row (2 * ax + (if up then 1 else 0)) = Some (El f).
(** [nbr e ax up f]: element f is beside side (ax, up) of element e *)
Definition glued (p : list nat) (nbr : nat -> nat -> bool -> nat -> Prop) (a b : nat * cell) : Prop :=
  exists ax up, nbr (fst a) ax up (fst b) /\ touching p ax up (snd a) (snd b).
(** the cells of the elements below n *)
Definition cell_of (p : list nat) (ts : list ctype) (n : nat) (a : nat * cell) : Prop := fst a < n /\ In (snd a) (cells p ts).
(** being the same cell: the equivalence generated *)
Definition identified (p : list nat) (ts : list ctype) (nbr : nat -> nat -> bool -> nat -> Prop) (n : nat) : relation (nat * cell) :=
  clos_refl_sym_trans _ (fun a b => cell_of p ts n a /\ cell_of p ts n b /\ glued p nbr a b).
(** the number given to a cell by gathering vectors, one for every element, in the order of the cells *)
Definition numbered (p : list nat) (ts : list ctype) (gm : list (nat * list nat)) (a : nat * cell) (n : nat) : Prop :=
  exists v i, In (fst a, v) gm /\ nth_error (cells p ts) i = Some (snd a) /\ nth_error v i = Some n.
(** a numbering which is total, consecutive, and tells classes of a relation apart *)
Definition total (p : list nat) (ts : list ctype) (N : nat) (gm : list (nat * list nat)) : Prop :=
  map fst gm = seq 0 N /\ forall e v, In (e, v) gm -> length v = length (cells p ts).
Definition consecutive (gm : list (nat * list nat)) (K : nat) : Prop := forall n, n < K <-> exists e v, In (e, v) gm /\ In n v.
Definition conforming (p : list nat) (ts : list ctype) (N : nat) (gm : list (nat * list nat)) (same : nat * cell -> nat * cell -> Prop) : Prop :=
  forall a b m n, cell_of p ts N a -> cell_of p ts N b -> numbered p ts gm a m -> numbered p ts gm b n -> (m = n <-> same a b).
(** every element except 0 has an earlier neighbour *)
Definition follows (nbr : nat -> nat -> bool -> nat -> Prop) (N : nat) : Prop := forall e, 0 < e < N -> exists f ax up, f < e /\ nbr f ax up e.
(** a cell which is one and the same as another, not later one, is glued to a cell of an earlier element *)
Definition met_before (p : list nat) (ts : list ctype) (nbr : nat -> nat -> bool -> nat -> Prop) (N : nat) : Prop :=
  forall e x f y, e <= f -> (e, x) <> (f, y) -> cell_of p ts N (e, x) -> cell_of p ts N (f, y) -> identified p ts nbr N (e, x) (f, y) ->
  exists g z, g < f /\ In z (cells p ts) /\ glued p nbr (g, z) (f, y).

(** * a box of lay elements with degrees p, periodic along the axes [per]: the place of a cell in the whole box *)
Definition coord (n q : nat) (per : bool) (X i : nat) : nat := if per then (X * q + i) mod (n * q) else X * q + i.
Definition box_cell (lay p : list nat) (per : nat -> bool) (idx : list nat) (x : cell) : cell :=
  map (fun a => (fst (nth a x (false, 0)), coord (nth a lay 0) (nth a p 0) (per a) (nth a idx 0) (snd (nth a x (false, 0))))) (seq 0 (length p)).
(** [num]: the element at an index; two cells of two elements are the same cell of the box *)
Definition same_box (lay p : list nat) (per : nat -> bool) (num : list nat -> nat) (a b : nat * cell) : Prop :=
  exists idx idx', Forall2 lt idx lay /\ Forall2 lt idx' lay /\ num idx = fst a /\ num idx' = fst b /\ box_cell lay p per idx (snd a) = box_cell lay p per idx' (snd b).
(** beside the element at idx is the next one, or if the axis is periodic that at the other end *)
Definition box_next (lay : list nat) (per : nat -> bool) (idx : list nat) (ax : nat) (up : bool) (idx' : list nat) : Prop :=
  length idx' = length idx /\ (forall a, a <> ax -> nth a idx' 0 = nth a idx 0) /\
  (moved up (nth ax idx 0) (nth ax idx' 0) \/
   (per ax = true /\ extreme up (nth ax lay 0) (nth ax idx 0) /\ extreme (negb up) (nth ax lay 0) (nth ax idx' 0))).
(** the number of cells of the whole box *)
Definition box_sizes (lay p : list nat) (per : nat -> bool) (t : ctype) : list nat :=
  map (fun a => nth a lay 0 * nth a p 0 + (if nth a t true || per a then 0 else 1)) (seq 0 (length p)).
Definition box_count (lay p : list nat) (per : nat -> bool) (ts : list ctype) : nat :=
  sum (map (fun t => fold_right Nat.mul 1 (box_sizes lay p per t)) ts).
(** the two region sides of axis a of region 0 are periodic *)
Definition periodic_axis (pairs : list ((nat * (nat * bool)) * (nat * (nat * bool)))) (a : nat) : Prop :=
  exists p, In p pairs /\ (psides p = [(0, 2 * a); (0, 2 * a + 1)] \/ psides p = [(0, 2 * a + 1); (0, 2 * a)]).
(** the numbers of the elements before any element are 0 .. n - 1: the dofs met first in an element get numbers above all earlier ones *)
Definition prefixed (gm : list (nat * list nat)) : Prop := forall e, exists n, forall m, m < n <-> exists f v, f < e /\ In (f, v) gm /\ In m v.
