(* Fields given by cochains: products of nodal and edge functions, one for each
   cell of the element, and their integrals; independent of the order of arrays
   in the code. *)
From Coq Require Import Reals List ZArith.
From Verif Require Import TfiModel TfiSpec CtModel CtSpec RingSum SpaceSpec DiscSpec ReconModel.
Import ListNotations.
Open Scope R_scope.

Definition degrees (s : Space3) : list nat := [pdeg (s0 s); pdeg (s1 s); pdeg (s2 s)].
(* the function of a factor of a cell and of a cell *)
Definition factor_fn (P : Poly1) (f : bool * nat) : R -> R := if fst f then edge_fn P (snd f) else node_fn P (snd f).
Definition cell_fn (s : Space3) (c : cell) (x y z : R) : R :=
  match c with
  | [a; b; d] => factor_fn (s0 s) a x * factor_fn (s1 s) b y * factor_fn (s2 s) d z
  | _ => 0
  end.
(* the sum over the cells of types ts that are selected *)
Definition expand (s : Space3) (ts : list ctype) (sel : cell -> bool) (c : list R) (x y z : R) : R :=
  rsum (combine (cells (degrees s) ts) c) (fun q => if sel (fst q) then snd q * cell_fn s (fst q) x y z else 0).
Definition ceqb (a b : coord) : bool := match a, b with cX, cX | cY, cY | cZ, cZ => true | _, _ => false end.
(* the functions on the reference element, for forms of degree 0 to 3; the
   component d of a 1-form belongs to the edges along d, of a 2-form to the
   faces normal to d *)
Definition hat0 (s : Space3) (c : list R) := expand s nodes3 (fun _ => true) c.
Definition hat1 (s : Space3) (c : list R) (d : coord) := expand s edges3 (fun e => ceqb (along e) d) c.
Definition hat2 (s : Space3) (c : list R) (d : coord) := expand s faces3 (fun f => ceqb (normal f) d) c.
Definition hat3 (s : Space3) (c : list R) := expand s volumes3 (fun _ => true) c.
(* v is the vector at a point whose pull back is u *)
Definition pulls1 (J : mat3) (v : vec) (u : coord -> R) : Prop := forall d, dot (col J d) v = u d.
Definition pulls2 (J : mat3) (v : vec) (u : coord -> R) : Prop := forall d, dot (cross (col J (next d)) (col J (next (next d)))) v = u d.
Definition pulls3 (J : mat3) (v : R) (u : R) : Prop := v * det3 J = u.

(* entry (i, j, k) of an array reshaped in order 'F' *)
Definition at_index {A} (m : Mesh3) (l : list A) (i j k : nat) : option A :=
  if ((i <? length (mx m)) && (j <? length (my m)) && (k <? length (mz m)))%nat%bool
  then nth_error l (i + j * length (mx m) + k * (length (mx m) * length (my m))) else None.
Definition mesh_pt (m : Mesh3) (i j k : nat) : option (R * R * R) :=
  match nth_error (mx m) i, nth_error (my m) j, nth_error (mz m) k with
  | Some x, Some y, Some z => Some (x, y, z)
  | _, _, _ => None
  end.
Definition on_grid (m : Mesh3) (P : R -> R -> R -> Prop) : Prop :=
  forall x y z, In x (mx m) -> In y (my m) -> In z (mz m) -> P x y z.
(* the array l of values at the points of the grid has values related by V *)
Definition array_of {A} (m : Mesh3) (l : list A) (V : R -> R -> R -> A -> Prop) : Prop :=
  forall i j k,
    match mesh_pt m i j k with
    | Some (x, y, z) => exists v, at_index m l i j k = Some v /\ V x y z v
    | None => at_index m l i j k = None
    end.

(* ---------- matrices ---------- *)
Definition times (M : list (list R)) (c : list R) : list R :=
  map (fun row => rsum (combine row c) (fun ab => fst ab * snd ab)) M.
Definition bilinear (M : list (list R)) (a b : list R) : R := rsum (combine a (times M b)) (fun ab => fst ab * snd ab).
Definition has_shape (M : list (list R)) (r c : nat) : Prop := length M = r /\ forall row, In row M -> length row = c.
(* the three matrices times the cochain are the components of the values *)
Definition components (l : list vec) (a b c : list R) : Prop :=
  a = map (fun v => TfiModel.get v cX) l /\ b = map (fun v => TfiModel.get v cY) l /\ c = map (fun v => TfiModel.get v cZ) l.
(* the integral over the element by the rules *)
Definition quad3 (q : Rule3) (h : R -> R -> R -> R) : R :=
  rsum (combine (fst (q0 q)) (snd (q0 q))) (fun a =>
  rsum (combine (fst (q1 q)) (snd (q1 q))) (fun b =>
  rsum (combine (fst (q2 q)) (snd (q2 q))) (fun d =>
    h (fst a) (fst b) (fst d) * (snd a * snd b * snd d)))).
Definition rule_ok (r : list R * list R) : Prop := length (fst r) = length (snd r).
Definition rules_ok (q : Rule3) : Prop := rule_ok (q0 q) /\ rule_ok (q1 q) /\ rule_ok (q2 q).
Definition positive_weights (q : Rule3) : Prop :=
  forall w, In w (snd (q0 q)) \/ In w (snd (q1 q)) \/ In w (snd (q2 q)) -> 0 < w.

(* ---------- basis functions ---------- *)
(* the nodal functions are one at their node and zero at the others; the
   derivative of sum u_i l_i is sum (u_(i+1) - u_i) e_i *)
Definition basis_of (n : list R) (P : Poly1) : Prop :=
  length n = S (pdeg P) /\
  (forall i j, (i <= pdeg P)%nat -> (j <= pdeg P)%nat -> node_fn P i (nth j n 0) = if (i =? j)%nat then 1 else 0) /\
  (forall (u : nat -> R) x, derivable_pt_lim (fun y => rsum (seq 0 (S (pdeg P))) (fun i => u i * node_fn P i y)) x
                              (rsum (seq 0 (pdeg P)) (fun i => (u (S i) - u i) * edge_fn P i x))).
Definition basis3_of (g : Grid) (s : Space3) : Prop := basis_of (gx g) (s0 s) /\ basis_of (gy g) (s1 s) /\ basis_of (gz g) (s2 s).
(* the rules of the axes give the integrals of the derivatives of the sums of
   nodal functions, between the nodes *)
Definition exact_for (n : list R) (r : list R * list R) (P : Poly1) : Prop :=
  forall u : nat -> R, integrates n r (fun y => rsum (seq 0 (S (pdeg P))) (fun i => u i * node_fn P i y)).
Definition rules_exact (g : Grid) (s : Space3) : Prop :=
  exact_for (gx g) (rx g) (s0 s) /\ exact_for (gy g) (ry g) (s1 s) /\ exact_for (gz g) (rz g) (s2 s).
(* nodes and points of the rules are in [-1, 1] *)
Definition in_ref (x : R) : Prop := -1 <= x <= 1.
Definition grid_ok (g : Grid) : Prop :=
  forall x, In x (gx g) \/ In x (gy g) \/ In x (gz g) \/ In x (fst (rx g)) \/ In x (fst (ry g)) \/ In x (fst (rz g)) -> in_ref x.
(* in the element, with or without its surface *)
Definition in_element (P : R -> R -> R -> Prop) : Prop := forall x y z, in_ref x -> in_ref y -> in_ref z -> P x y z.
Definition inside_element (P : R -> R -> R -> Prop) : Prop :=
  forall x y z, -1 < x < 1 -> -1 < y < 1 -> -1 < z < 1 -> P x y z.
(* G, D: the derivatives of f, v at the points of the element *)
Definition grad_inside (F : coord -> R -> R -> R -> R) (f : R -> R -> R -> R) (G : coord -> R -> R -> R -> R) : Prop :=
  inside_element (fun x y z => has_grad f (F cX x y z) (F cY x y z) (F cZ x y z) (through (value G) F x y z)).
Definition deriv_inside (F : coord -> R -> R -> R -> R) (v : coord -> R -> R -> R -> R) (D : coord -> coord -> R -> R -> R -> R) : Prop :=
  inside_element (fun x y z => forall i, has_grad (v i) (F cX x y z) (F cY x y z) (F cZ x y z) (through (value (D i)) F x y z)).
(* only the zero sum of nodal functions, or of edge functions, vanishes at all
   the points l *)
Definition separates (l : list R) (P : Poly1) : Prop :=
  (forall u : nat -> R, (forall y, In y l -> rsum (seq 0 (S (pdeg P))) (fun i => u i * node_fn P i y) = 0) -> forall i, (i <= pdeg P)%nat -> u i = 0) /\
  (forall u : nat -> R, (forall y, In y l -> rsum (seq 0 (pdeg P)) (fun i => u i * edge_fn P i y) = 0) -> forall i, (i < pdeg P)%nat -> u i = 0).
Definition rules_separate (q : Rule3) (s : Space3) : Prop :=
  separates (fst (q0 q)) (s0 s) /\ separates (fst (q1 q)) (s1 s) /\ separates (fst (q2 q)) (s2 s).
Definition entry_at (M : list (list R)) (i j : nat) : R := nth j (nth i M []) 0.
Definition symmetric (M : list (list R)) (n : nat) : Prop :=
  has_shape M n n /\ forall i j, (i < n)%nat -> (j < n)%nat -> entry_at M i j = entry_at M j i.
Definition positive_definite (M : list (list R)) (n : nat) : Prop :=
  forall c, length c = n -> 0 <= bilinear M c c /\ (bilinear M c c = 0 -> c = repeat 0 n).
(* the rule gives the integrals over [-1, 1] of the powers below d *)
Definition exact_degree (r : list R * list R) (d : nat) : Prop :=
  forall k, (k < d)%nat -> rsum (combine (fst r) (snd r)) (fun xw => fst xw ^ k * snd xw) = (1 - (-1) ^ S k) / INR (S k).
