(* Integrals of a vector or scalar over the cells of an element, by quadrature
   rules, independent of the order of loops and arrays in the code. *)
From Coq Require Import Reals List ZArith.
From Verif Require Import TfiModel TfiSpec CtModel CtSpec RingSum SpaceSpec.
Import ListNotations.
Open Scope R_scope.

Definition rsum {A} (l : list A) (f : A -> R) : R := fold_right (fun a s => f a + s) 0 l.
(* the points and weights along one factor of a cell: the node, or the rule on
   [-1, 1] moved to the interval *)
Definition factor_rule (n : list R) (r : list R * list R) (f : bool * nat) : list (R * R) :=
  match f with
  | (false, i) => [(nth i n 0, 1)]
  | (true, i) =>
      let a := nth i n 0 in let b := nth (S i) n 0 in
      map (fun qw => ((1 - fst qw) / 2 * a + (1 + fst qw) / 2 * b, snd qw * ((b - a) / 2)))
          (combine (fst r) (snd r))
  end.
(* nodes and rules of the three axes *)
Record Grid := mkGrid { gx : list R; gy : list R; gz : list R;
                        rx : list R * list R; ry : list R * list R; rz : list R * list R }.
Definition cell_quad (g : Grid) (h : R -> R -> R -> R) (c : cell) : R :=
  match c with
  | [fx; fy; fz] =>
      rsum (factor_rule (gx g) (rx g) fx) (fun a =>
      rsum (factor_rule (gy g) (ry g) fy) (fun b =>
      rsum (factor_rule (gz g) (rz g) fz) (fun d =>
        h (fst a) (fst b) (fst d) * (snd a * snd b * snd d))))
  | _ => 0
  end.
(* pull backs of a scalar f and a vector v by the map F with Jacobian matrix J *)
Definition through {A} (f : R -> R -> R -> A) (F : coord -> R -> R -> R -> R) (x y z : R) : A :=
  f (F cX x y z) (F cY x y z) (F cZ x y z).
Definition value (v : coord -> R -> R -> R -> R) (x y z : R) : vec := (v cX x y z, v cY x y z, v cZ x y z).
Definition next (c : coord) : coord := match c with cX => cY | cY => cZ | cZ => cX end.
Definition pull1 F (J : R -> R -> R -> mat3) v (c : coord) (x y z : R) : R :=
  dot (col (J x y z) c) (through (value v) F x y z).
Definition pull2 F (J : R -> R -> R -> mat3) v (c : coord) (x y z : R) : R :=
  dot (cross (col (J x y z) (next c)) (col (J x y z) (next (next c)))) (through (value v) F x y z).
Definition pull3 F (J : R -> R -> R -> mat3) f (x y z : R) : R := through f F x y z * det3 (J x y z).
(* the direction of an edge, the direction normal to a face *)
Definition along (c : cell) : coord :=
  match map fst c with [true; _; _] => cX | [_; true; _] => cY | _ => cZ end.
Definition normal (c : cell) : coord :=
  match map fst c with [false; _; _] => cX | [_; false; _] => cY | _ => cZ end.
(* the integrals of 0-, 1-, 2- and 3-forms *)
Definition int0 (g : Grid) F f : cell -> R := cell_quad g (through f F).
Definition int1 (g : Grid) F J v (c : cell) : R := cell_quad g (pull1 F J v (along c)) c.
Definition int2 (g : Grid) F J v (c : cell) : R := cell_quad g (pull2 F J v (normal c)) c.
Definition int3 (g : Grid) F J f : cell -> R := cell_quad g (pull3 F J f).
Definition diagonal (m : mat3) : Prop := forall i j, i <> j -> ent m i j = 0.

(* the reals as a ring *)
Definition RRing : CRing := mkCRing R 0 1 Rplus Rmult Rminus Ropp RTheory.
(* u = E w for lists of numbers *)
Definition mat_times (E : nat -> nat -> Z) (w u : list R) : Prop :=
  forall r, (r < length u)%nat -> nth r u 0 = apply_mat (K := RRing) (length w) E (fun c => nth c w 0) r.

(* ---------- differentiability ---------- *)
(* g is the gradient of f at (x, y, z): the chain rule holds along every curve
   through the point *)
Definition has_grad (f : R -> R -> R -> R) (x y z : R) (g : vec) : Prop :=
  forall (c : coord -> R -> R) (t : R) (d : vec),
    c cX t = x -> c cY t = y -> c cZ t = z ->
    (forall i, derivable_pt_lim (c i) t (get d i)) ->
    derivable_pt_lim (fun s => f (c cX s) (c cY s) (c cZ s)) t (dot g d).
(* the derivatives of the columns of J: H c i j is the derivative of the c-th
   component of column i along axis j, symmetric in i and j *)
Definition second_derivs (J : R -> R -> R -> mat3) (H : coord -> coord -> coord -> R -> R -> R -> R) : Prop :=
  (forall c i x y z,
     derivable_pt_lim (fun s => ent (J s y z) c i) x (H c i cX x y z) /\
     derivable_pt_lim (fun s => ent (J x s z) c i) y (H c i cY x y z) /\
     derivable_pt_lim (fun s => ent (J x y s) c i) z (H c i cZ x y z)) /\
  (forall c i j x y z, H c i j x y z = H c j i x y z).
(* D i j is the derivative of component i along j *)
Definition curl_of (D : coord -> coord -> R) : vec :=
  (D cZ cY - D cY cZ, D cX cZ - D cZ cX, D cY cX - D cX cY).
Definition div_of (D : coord -> coord -> R) : R := csum (fun i => D i i).
Definition curl_field (D : coord -> coord -> R -> R -> R -> R) (c : coord) (x y z : R) : R :=
  get (curl_of (fun i j => D i j x y z)) c.
Definition div_field (D : coord -> coord -> R -> R -> R -> R) (x y z : R) : R := div_of (fun i j => D i j x y z).
Definition deriv_of (v : coord -> R -> R -> R -> R) (D : coord -> coord -> R -> R -> R -> R) : Prop :=
  forall i x y z, has_grad (v i) x y z (D i cX x y z, D i cY x y z, D i cZ x y z).

(* ---------- quadrature ---------- *)
(* the rule, moved to the intervals between the nodes n, gives the integrals of
   h' with primitive h *)
Definition exact_on (n : list R) (r : list R * list R) (h h' : R -> R) : Prop :=
  forall i, (S i < length n)%nat ->
    rsum (factor_rule n r (true, i)) (fun pw => h' (fst pw) * snd pw) = h (nth (S i) n 0) - h (nth i n 0).
(* ... whatever the derivative of h is *)
Definition integrates (n : list R) (r : list R * list R) (h : R -> R) : Prop :=
  forall h', (forall x, derivable_pt_lim h x (h' x)) -> exact_on n r h h'.
(* along the lines in direction c *)
Definition integrates_along (g : Grid) (c : coord) (h : R -> R -> R -> R) : Prop :=
  forall a b, match c with
              | cX => integrates (gx g) (rx g) (fun x => h x a b)
              | cY => integrates (gy g) (ry g) (fun y => h a y b)
              | cZ => integrates (gz g) (rz g) (fun z => h a b z)
              end.
