(** Independent specification of the cells of one element: the cubical complex of a box of p0 x p1 x .. cells.
    A cell is a product of points and intervals. *)
From Coq Require Import List Arith ZArith Bool.
From Verif Require Import RingSum.
Import ListNotations.

(** (true, i) is the interval from node i to node i+1, (false, i) the node i *)
Definition cell := list (bool * nat).

(** a type of cells says which factors are intervals *)
Definition ctype := list bool.
Definition ok_factor (n : nat) (f : bool * nat) : Prop := if fst f then snd f < n else snd f <= n.
(** the cells of type t of the box with degrees p *)
Definition is_cell (p : list nat) (t : ctype) (c : cell) : Prop := map fst c = t /\ Forall2 ok_factor p c.

(** the positions, first index fastest *)
Fixpoint grid (s : list nat) : list (list nat) :=
  match s with
  | [] => [[]]
  | n :: s' => flat_map (fun r => map (fun i => i :: r) (seq 0 n)) (grid s')
  end.
Definition size (n : nat) (interval : bool) : nat := if interval then n else S n.
Fixpoint sizes (p : list nat) (t : ctype) : list nat :=
  match p, t with
  | n :: p', b :: t' => size n b :: sizes p' t'
  | _, _ => []
  end.
Definition cells_t (p : list nat) (t : ctype) : list cell := map (combine t) (grid (sizes p t)).
(** the dofs of a form: type by type *)
Definition cells (p : list nat) (ts : list ctype) : list cell := flat_map (cells_t p) ts.

Definition nodes3 : list ctype := [[false; false; false]].
Definition edges3 : list ctype := [[true; false; false]; [false; true; false]; [false; false; true]].
Definition faces3 : list ctype := [[false; true; true]; [true; false; true]; [true; true; false]].
Definition volumes3 : list ctype := [[true; true; true]].
Definition nodes2 : list ctype := [[false; false]].
(** edges along the axes (inner 1-forms), and in the order of the axis they are normal to (outer 1-forms) *)
Definition edges2_inner : list ctype := [[true; false]; [false; true]].
Definition edges2_outer : list ctype := [[false; true]; [true; false]].
Definition faces2 : list ctype := [[true; true]].

Definition factor_eqb (a b : bool * nat) : bool := Bool.eqb (fst a) (fst b) && (snd a =? snd b).
Fixpoint cell_eqb (a b : cell) : bool :=
  match a, b with
  | [], [] => true
  | x :: a', y :: b' => factor_eqb x y && cell_eqb a' b'
  | _, _ => false
  end.
(** incidence number of a cell and a cell of one dimension less, for the product orientation: the boundary of the
    interval i is the node i+1 minus the node i; d(a x b) = da x b + (-1)^dim(a) a x db *)
Fixpoint inc (s t : cell) : Z :=
  match s, t with
  | (true, i) :: s', (false, j) :: t' =>
      if cell_eqb s' t' then (if j =? i + 1 then 1%Z else if j =? i then (-1)%Z else 0%Z) else 0%Z
  | x :: s', y :: t' =>
      if factor_eqb x y then (if fst x then (- inc s' t')%Z else inc s' t') else 0%Z
  | _, _ => 0%Z
  end.
(** orientations: the faces normal to the second axis carry the orientation dz^dx, the 2D edges of an outer 1-form
    along the first axis the orientation with normal along the second axis; all others the product orientation *)
Definition orient3 (c : cell) : Z :=
  match map fst c with [true; false; true] => (-1)%Z | _ => 1%Z end.
Definition orient_in (c : cell) : Z := 1%Z.
Definition orient_out (c : cell) : Z := match map fst c with [true; false] => (-1)%Z | _ => 1%Z end.

(** a side of the box: axis and which end; a cell lies on it if that factor is the end node *)
Definition on_side (p : list nat) (s : nat * bool) (c : cell) : bool :=
  match nth_error c (fst s), nth_error p (fst s) with
  | Some f, Some n => factor_eqb f (false, if snd s then n else 0)
  | _, _ => false
  end.
Definition sides3 : list (nat * bool) := [(0, false); (0, true); (1, false); (1, true); (2, false); (2, true)].
Definition sides2 : list (nat * bool) := [(0, false); (0, true); (1, false); (1, true)].
(** the trace dofs: side by side, the dofs of the form on that side *)
Definition on_sides (p : list nat) (ts : list ctype) (sides : list (nat * bool)) : list ((nat * bool) * cell) :=
  flat_map (fun s => map (pair s) (filter (on_side p s) (cells p ts))) sides.
Definition outward_sign (s : nat * bool) : Z := if snd s then 1%Z else (-1)%Z.

(** integer multiples, and an integer matrix with n columns applied to a cochain *)
Definition zmul {K : CRing} (z : Z) (x : K) : K :=
  match z with
  | Z0 => r0
  | Zpos q => nmul (Pos.to_nat q) x
  | Zneg q => ropp (nmul (Pos.to_nat q) x)
  end.
Definition apply_mat {K : CRing} (n : nat) (M : nat -> nat -> Z) (u : nat -> K) (r : nat) : K :=
  bsum (seq 0 n) (fun c => zmul (M r c) (u c)).
(** the matrix picking, for each member of L, the value at its cell, times a factor depending on its side *)
Definition restricts {A} (L : list (A * cell)) (cs : list cell) (sg : A -> Z) (T : nat -> nat -> Z) : Prop :=
  forall r c, T r c = match nth_error L r, nth_error cs c with
                      | Some (s, x), Some y => if cell_eqb x y then sg s else 0%Z
                      | _, _ => 0%Z
                      end.
(** the edges of the box as the two sides they are on: WB EB WF EF NB SB NF SF NW SW NE SE *)
Definition edge_sides3 : list ((nat * bool) * (nat * bool)) :=
  [ ((1, false), (2, false)); ((1, true), (2, false)); ((1, false), (2, true)); ((1, true), (2, true));
    ((0, false), (2, false)); ((0, true), (2, false)); ((0, false), (2, true)); ((0, true), (2, true));
    ((0, false), (1, false)); ((0, true), (1, false)); ((0, false), (1, true)); ((0, true), (1, true)) ].
Definition on_edge (p : list nat) (e : (nat * bool) * (nat * bool)) (c : cell) : bool :=
  on_side p (fst e) c && on_side p (snd e) c.
Definition on_edges (p : list nat) (ts : list ctype) (es : list ((nat * bool) * (nat * bool)))
    : list (((nat * bool) * (nat * bool)) * cell) :=
  flat_map (fun e => map (pair e) (filter (on_edge p e) (cells p ts))) es.
(** the cells on the surface of the box *)
Definition on_surface (p : list nat) (c : cell) : bool := existsb (fun s => on_side p s c) sides3.
(** lists per side which number the cells on the surface: equal cells have equal numbers, different cells different
    ones, and the numbers are 0 .. N-1 *)
Definition numbers_surface (p : list nat) (ts : list ctype) (L : list (list Z)) (N : nat) : Prop :=
  exists num : cell -> nat,
    L = map (fun s => map (fun c => Z.of_nat (num c)) (filter (on_side p s) (cells p ts))) sides3 /\
    (forall c d, In c (cells p ts) -> In d (cells p ts) -> on_surface p c = true -> on_surface p d = true ->
       num c = num d -> c = d) /\
    (forall n, n < N <-> exists c, In c (cells p ts) /\ on_surface p c = true /\ num c = n).
(** the sign given to a cell by the last of the sides containing it *)
Definition last_sign (p : list nat) (sides : list (nat * bool)) (c : cell) : Z :=
  fold_left (fun z s => if on_side p s c then outward_sign s else z) sides 0%Z.
(** a matrix with the incidence numbers of the cells cd and cs, for the orientations od and os *)
Definition realises (E : nat -> nat -> Z) (cd cs : list cell) (od os : cell -> Z) : Prop :=
  forall r c s t, nth_error cd r = Some s -> nth_error cs c = Some t -> E r c = (od s * os t * inc s t)%Z.
(** a numbering of the cells: G c i is the number of the cell at index i of component c *)
Definition numbers (p : list nat) (ts : list ctype) (G : nat -> list nat -> option nat) (n : nat) : Prop :=
  n = length (cells p ts) /\
  forall c i k, G c i = Some k <->
    exists t, nth_error ts c = Some t /\ length i = length p /\ nth_error (cells p ts) k = Some (combine t i).
Definition one_to_one (G : nat -> list nat -> option nat) (n : nat) : Prop :=
  (forall c i k, G c i = Some k -> k < n) /\
  (forall k, k < n -> exists c i, G c i = Some k) /\
  (forall c i c' i' k, G c i = Some k -> G c' i' = Some k -> c = c' /\ i = i').
(** A u = B t for all rows says: the trace values t are the values of the form u on the surface *)
Definition coupled (K : CRing) (p : list nat) (ts : list ctype) (N : nat) (L : list (list Z)) (A B : nat -> nat -> Z) : Prop :=
  forall (u t : nat -> K),
  (forall r, r < N -> apply_mat (length (cells p ts)) A u r = apply_mat N B t r) <->
  (forall k s l j i, nth_error sides3 k = Some s -> nth_error L k = Some l -> nth_error l j = Some (Z.of_nat i) ->
     forall c n, nth_error (filter (on_side p s) (cells p ts)) j = Some c -> nth_error (cells p ts) n = Some c -> t i = u n).
(** the k-th matrix picks the cells on the k-th side *)
Definition side_blocks (p : list nat) (ts : list ctype) (sg : nat * bool -> Z) (Bs : list (nat -> nat -> Z)) : Prop :=
  forall k s B r c x, nth_error sides3 k = Some s -> nth_error Bs k = Some B ->
    nth_error (filter (on_side p s) (cells p ts)) r = Some x ->
    B r c = match nth_error (cells p ts) c with Some y => if cell_eqb x y then sg s else 0%Z | None => 0%Z end.
