(* Discretization (reduction) of scalars and vectors to standard forms, for one
   element of a 3D or 2D structured mesh: objects/CSCG/_3d/forms/standard/_0s,
   _1s, _2s, _3s/discretize/*/standard.py and objects/CSCG/_2d/forms/standard/
   _0_form, _1_form, _2_form.  Over the reals; rounding is not modelled.
   Arrays with quadrature points along axis 0 and degrees of freedom along axis
   1 are lists of columns.  Operations on arrays of different lengths, an error
   in numpy, stop at the shorter one.  The quadrature rules (nodes on [-1, 1]
   and weights, components/quadrature.py), the map of the element, its Jacobian
   matrix and the function are arguments; the caches of Jacobian matrices by
   metric type are those of C89. *)
From Coq Require Import Reals List.
From Verif Require Import TfiModel CtModel.
Import ListNotations.
Open Scope R_scope.

(* ---------- numpy ---------- *)
Fixpoint map2 {A B C} (f : A -> B -> C) (l : list A) (m : list B) : list C :=
  match l, m with
  | x :: l', y :: m' => f x y :: map2 f l' m'
  | _, _ => []
  end.
Definition lsum (l : list R) : R := fold_right Rplus 0 l.
(* np.tile(l, n) of a vector, np.tile(M, (1, n)) of a list of columns *)
Definition tile {A} (l : list A) (n : nat) : list A := concat (repeat l n).
(* np.repeat(l, n) of a vector, axis=1 of a list of columns *)
Definition rep {A} (l : list A) (n : nat) : list A := flat_map (fun x => repeat x n) l.
(* l[1:] - l[:-1] *)
Definition diffs (l : list R) : list R := map2 Rminus (tl l) l.
(* l[:-1] *)
Definition init (l : list R) : list R := removelast l.
(* l[np.newaxis, :].repeat(n, axis=0) *)
Definition rows (l : list R) (n : nat) : list (list R) := map (fun x => repeat x n) l.
(* a column operation with a vector: M * v, M + v *)
Definition colop (f : R -> R -> R) (M : list (list R)) (v : list R) : list (list R) :=
  map2 (fun c y => map (fun x => f x y) c) M v.
(* .reshape((r, c), order='F') of the array with the entries l in order 'F' *)
Definition reshapeF (l : list R) (r c : nat) : list (list R) :=
  map (fun k => firstn r (skipn (k * r) l)) (seq 0 c).
(* np.einsum('jk, j, k -> k', M, w, s) *)
Definition einsum1 (M : list (list R)) (w s : list R) : list R :=
  map2 (fun c y => lsum (map2 Rmult c w) * y) M s.

Definition rule := (list R * list R)%type.
(* the function of the form: components as functions of the coordinates *)
Definition field := coord -> R -> R -> R -> R.
(* the map and the Jacobian matrix of an element *)
Definition emap := coord -> R -> R -> R -> R.
Definition ejac := R -> R -> R -> mat3.
Definition at_map (f : R -> R -> R -> R) (F : emap) (x y z : R) : R := f (F cX x y z) (F cY x y z) (F cZ x y z).
Definition col_of (m : mat3) (c : coord) : R * R * R :=
  match m with (u, v, w) => (get u c, get v c, get w c) end.

(* ---------- _0s/discretize/scalar/standard.py 23-41 ---------- *)
Definition mesh3 (n0 n1 n2 : list R) : list (R * R * R) :=
  flat_map (fun z => flat_map (fun y => map (fun x => (x, y, z)) n0) n1) n2.
Definition disc0 (n0 n1 n2 : list R) (F : emap) (f : R -> R -> R -> R) : list R :=
  map (fun q => match q with (x, y, z) => at_map f F x y z end) (mesh3 n0 n1 n2).

(* ---------- _1s/discretize/vector/standard.py ---------- *)
(* ___PRIVATE_discretize_preparation___ 159-212: xi, eta, sigma, edge_size;
   n0, n1, n2 are space.nodes, p0, p1, p2 the degrees, q the quadrature nodes
   of the direction; num.basis_components[1] is (p0+1) p1 (p2+1), [2] is
   (p0+1) (p1+1) p2 *)
Definition prep := (list (list R) * list (list R) * list (list R) * list R)%type.
Definition prep_x (n0 n1 n2 : list R) (p0 p1 p2 : nat) (q : list R) : prep :=
  let b := ((p1 + 1) * (p2 + 1))%nat in
  let es := tile (diffs n0) b in
  let D := map (map (fun x => x + 1)) (repeat q (b * p0)) in
  let xi1 := map (map (fun x => x / 2)) (colop Rmult D es) in
  let xi := colop Rplus xi1 (tile (init n0) b) in
  let eta := tile (reshapeF (concat (map (fun c => tile c p0) (rows n1 (length q))))
                            (length q) (p0 * (p1 + 1))) (p2 + 1) in
  let sigma := rows (rep n2 (p0 * (p1 + 1))) (length q) in
  (xi, eta, sigma, es).
Definition prep_y (n0 n1 n2 : list R) (p0 p1 p2 : nat) (q : list R) : prep :=
  let es := tile (rep (diffs n1) (p0 + 1)) (p2 + 1) in
  let xi := rows (tile n0 (p1 * (p2 + 1))) (length q) in
  let D := map (map (fun x => x + 1)) (repeat q ((p0 + 1) * p1 * (p2 + 1))) in
  let eta1 := map (map (fun x => x / 2)) (colop Rmult D es) in
  let eta := colop Rplus eta1 (tile (rep (init n1) (p0 + 1)) (p2 + 1)) in
  let sigma := rows (rep n2 (p1 * (p0 + 1))) (length q) in
  (xi, eta, sigma, es).
Definition prep_z (n0 n1 n2 : list R) (p0 p1 p2 : nat) (q : list R) : prep :=
  let es := rep (rep (diffs n2) (p0 + 1)) (p1 + 1) in
  let xi := rows (tile n0 ((p1 + 1) * p2)) (length q) in
  let eta := rows (tile (rep n1 (p0 + 1)) p2) (length q) in
  let D := map (map (fun x => x + 1)) (repeat q ((p0 + 1) * (p1 + 1) * p2)) in
  let sigma1 := map (map (fun x => x / 2)) (colop Rmult D es) in
  let sigma := colop Rplus sigma1 (rep (init n2) ((p0 + 1) * (p1 + 1))) in
  (xi, eta, sigma, es).
(* a function of three arrays of points *)
Definition at_points (h : R -> R -> R -> R) (xi eta sigma : list (list R)) : list (list R) :=
  map2 (fun cx c => map2 (fun x p => h x (fst p) (snd p)) cx c) xi
       (map2 (fun cy cz => combine cy cz) eta sigma).
(* the integrand of the loop 78-147 in the direction c: J[c][c] * FUNC[c] for
   marks that start with 'Orth', J[0][c]*u + J[1][c]*v + J[2][c]*w otherwise *)
Definition integrand1 (F : emap) (J : ejac) (v : field) (orth : bool) (c : coord) (x y z : R) : R :=
  match col_of (J x y z) c with
  | (j0, j1, j2) =>
      if orth then get (j0, j1, j2) c * at_map (v c) F x y z
      else j0 * at_map (v cX) F x y z + j1 * at_map (v cY) F x y z + j2 * at_map (v cZ) F x y z
  end.
Definition part1 (P : prep) (w : list R) (h : R -> R -> R -> R) : list R :=
  match P with
  | (xi, eta, sigma, es) => einsum1 (at_points h xi eta sigma) w (map (fun s => s * (1 / 2)) es)
  end.
(* __call__ 16-157, one element; r0, r1, r2: quad_nodes[i], quad_weights[i] *)
Definition disc1 (n0 n1 n2 : list R) (p0 p1 p2 : nat) (r0 r1 r2 : rule)
    (F : emap) (J : ejac) (orth : bool) (v : field) : list R :=
  part1 (prep_x n0 n1 n2 p0 p1 p2 (fst r0)) (snd r0) (integrand1 F J v orth cX) ++
  part1 (prep_y n0 n1 n2 p0 p1 p2 (fst r1)) (snd r1) (integrand1 F J v orth cY) ++
  part1 (prep_z n0 n1 n2 p0 p1 p2 (fst r2)) (snd r2) (integrand1 F J v orth cZ).

(* ---------- _2s/discretize/vector/standard.py ---------- *)
(* xi[m, ...] = ... in loops over k, j, i: the array of points (lists of rows)
   and the area written to entry m; everything starts as zero *)
Definition patch := (list (list (R * R * R)) * R)%type.
Definition write {A} (f : nat -> A) (mv : nat * A) : nat -> A :=
  fun m => if Nat.eqb m (fst mv) then snd mv else f m.
Definition loops (K J I : nat) : list (nat * nat * nat) :=
  flat_map (fun k => flat_map (fun j => map (fun i => (i, j, k)) (seq 0 I)) (seq 0 J)) (seq 0 K).
Definition nd (l : list R) (i : nat) : R := nth i l 0.
(* (q + 1) * (n[i+1] - n[i]) / 2 + n[i] *)
Definition stretch (n : list R) (i : nat) (q : R) : R := (q + 1) * (nd n (i + 1) - nd n i) / 2 + nd n i.
Definition zero_patch : patch := ([], 0).
Definition fill {A} (z : A) (L : list (nat * nat * nat)) (num : nat * nat * nat -> nat) (g : nat * nat * nat -> A) : nat -> A :=
  fold_left write (map (fun t => (num t, g t)) L) (fun _ => z).
(* 35-53: faces dy dz *)
Definition patches_x (n0 n1 n2 : list R) (p0 p1 p2 : nat) (q1 q2 : list R) : nat -> patch :=
  fill zero_patch (loops p2 p1 (p0 + 1)) (fun t => match t with (i, j, k) => (i + j * (p0 + 1) + k * (p0 + 1) * p1)%nat end)
    (fun t => match t with (i, j, k) =>
       (map (fun a => map (fun b => (nd n0 i, stretch n1 j a, stretch n2 k b)) q2) q1,
        (nd n2 (k + 1) - nd n2 k) * (nd n1 (j + 1) - nd n1 j)) end).
(* 55-73: faces dz dx *)
Definition patches_y (n0 n1 n2 : list R) (p0 p1 p2 : nat) (q0 q2 : list R) : nat -> patch :=
  fill zero_patch (loops p2 (p1 + 1) p0) (fun t => match t with (i, j, k) => (i + j * p0 + k * (p1 + 1) * p0)%nat end)
    (fun t => match t with (i, j, k) =>
       (map (fun a => map (fun b => (stretch n0 i a, nd n1 j, stretch n2 k b)) q2) q0,
        (nd n2 (k + 1) - nd n2 k) * (nd n0 (i + 1) - nd n0 i)) end).
(* 75-93: faces dx dy *)
Definition patches_z (n0 n1 n2 : list R) (p0 p1 p2 : nat) (q0 q1 : list R) : nat -> patch :=
  fill zero_patch (loops (p2 + 1) p1 p0) (fun t => match t with (i, j, k) => (i + j * p0 + k * p1 * p0)%nat end)
    (fun t => match t with (i, j, k) =>
       (map (fun a => map (fun b => (stretch n0 i a, stretch n1 j b, nd n2 k)) q1) q0,
        (nd n1 (j + 1) - nd n1 j) * (nd n0 (i + 1) - nd n0 i)) end).
(* ___PRIVATE_discretize_standard_einsum___ 221-227, entry j *)
Definition einsum2 (h : R -> R -> R -> R) (P : patch) (w1 w2 : list R) : R :=
  lsum (map2 (fun row a => lsum (map2 (fun q b => match q with (x, y, z) => h x y z end * (a * b)) row w2)) (fst P) w1)
  * (snd P * (1 / 4)).
(* 120-209: the cofactors (Jx_0, Jx_1, Jx_2), ..., and the integrands *)
Definition cofactors (m : mat3) (c : coord) : R * R * R :=
  match m with
  | ((j00, j01, j02), (j10, j11, j12), (j20, j21, j22)) =>
      match c with
      | cX => (j11 * j22 - j12 * j21, j21 * j02 - j22 * j01, j01 * j12 - j02 * j11)
      | cY => (j12 * j20 - j10 * j22, j22 * j00 - j20 * j02, j02 * j10 - j00 * j12)
      | cZ => (j10 * j21 - j11 * j20, j20 * j01 - j21 * j00, j00 * j11 - j01 * j10)
      end
  end.
Definition cofactor_orth (m : mat3) (c : coord) : R :=
  match m with
  | ((j00, _, _), (_, j11, _), (_, _, j22)) =>
      match c with cX => j11 * j22 | cY => j00 * j22 | cZ => j11 * j00 end
  end.
Definition integrand2 (F : emap) (J : ejac) (v : field) (orth : bool) (c : coord) (x y z : R) : R :=
  if orth then cofactor_orth (J x y z) c * at_map (v c) F x y z
  else match cofactors (J x y z) c with
       | (a, b, d) => a * at_map (v cX) F x y z + b * at_map (v cY) F x y z + d * at_map (v cZ) F x y z
       end.
Definition disc2 (n0 n1 n2 : list R) (p0 p1 p2 : nat) (r0 r1 r2 : rule)
    (F : emap) (J : ejac) (orth : bool) (v : field) : list R :=
  map (fun m => einsum2 (integrand2 F J v orth cX) (patches_x n0 n1 n2 p0 p1 p2 (fst r1) (fst r2) m) (snd r1) (snd r2))
      (seq 0 ((p0 + 1) * p1 * p2)) ++
  map (fun m => einsum2 (integrand2 F J v orth cY) (patches_y n0 n1 n2 p0 p1 p2 (fst r0) (fst r2) m) (snd r0) (snd r2))
      (seq 0 (p0 * (p1 + 1) * p2)) ++
  map (fun m => einsum2 (integrand2 F J v orth cZ) (patches_z n0 n1 n2 p0 p1 p2 (fst r0) (fst r1) m) (snd r0) (snd r1))
      (seq 0 (p0 * p1 * (p2 + 1))).

(* ---------- _3s/discretize/scalar/standard.py 24-76 ---------- *)
Definition patch3 := (list (list (list (R * R * R))) * R)%type.
Definition patches3 (n0 n1 n2 : list R) (p0 p1 p2 : nat) (q0 q1 q2 : list R) : nat -> patch3 :=
  fill ([], 0) (loops p2 p1 p0) (fun t => match t with (i, j, k) => (i + j * p0 + k * p0 * p1)%nat end)
    (fun t => match t with (i, j, k) =>
       (map (fun a => map (fun b => map (fun c => (stretch n0 i a, stretch n1 j b, stretch n2 k c)) q2) q1) q0,
        (nd n0 (i + 1) - nd n0 i) * (nd n1 (j + 1) - nd n1 j) * (nd n2 (k + 1) - nd n2 k) * (1 / 8)) end).
Definition einsum3 (h : R -> R -> R -> R) (P : patch3) (w0 w1 w2 : list R) : R :=
  lsum (map2 (fun pl a => lsum (map2 (fun row b => lsum (map2 (fun q c => match q with (x, y, z) => h x y z end * a * b * c)
                                                              row w2)) pl w1)) (fst P) w0) * snd P.
Definition disc3 (n0 n1 n2 : list R) (p0 p1 p2 : nat) (r0 r1 r2 : rule)
    (F : emap) (J : ejac) (f : R -> R -> R -> R) : list R :=
  map (fun m => einsum3 (fun x y z => at_map f F x y z * ct_Jacobian (J x y z))
                        (patches3 n0 n1 n2 p0 p1 p2 (fst r0) (fst r1) (fst r2) m) (snd r0) (snd r1) (snd r2))
      (seq 0 (p0 * p1 * p2)).
