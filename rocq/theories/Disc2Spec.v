(* Integrals over the cells of a 2D element, and derivatives in the plane. *)
From Coq Require Import Reals List ZArith.
From Verif Require Import RingSum SpaceSpec DiscSpec.
Import ListNotations.
Open Scope R_scope.

(* nodes and rules of the two axes *)
Record Grid2 := mkGrid2 { hx : list R; hy : list R; sx : list R * list R; sy : list R * list R }.
Definition quad2 (g : Grid2) (h : R -> R -> R) (c : cell) : R :=
  match c with
  | [fx; fy] =>
      rsum (factor_rule (hx g) (sx g) fx) (fun a =>
      rsum (factor_rule (hy g) (sy g) fy) (fun b => h (fst a) (fst b) * (snd a * snd b)))
  | _ => 0
  end.
Definition plane := (R * R)%type.
Definition comp (b : bool) (v : plane) : R := if b then snd v else fst v.
Definition dot2 (u v : plane) : R := fst u * fst v + snd u * snd v.
Definition cross2 (u v : plane) : R := fst u * snd v - snd u * fst v.
(* a matrix by its columns, the derivatives along the first and second axis *)
Definition mcol (m : (R * R) * (R * R)) (b : bool) : plane := (comp b (fst m), comp b (snd m)).
Definition through2 {A} (f : R -> R -> A) (F : (R -> R -> R) * (R -> R -> R)) (x y : R) : A := f (fst F x y) (snd F x y).
Definition value2 (v : (R -> R -> R) * (R -> R -> R)) (x y : R) : plane := (fst v x y, snd v x y).
(* the axis of an edge *)
Definition along2 (c : cell) : bool := match map fst c with [true; _] => false | _ => true end.
Definition circ F (J : R -> R -> (R * R) * (R * R)) v (b : bool) (x y : R) : R := dot2 (mcol (J x y) b) (through2 (value2 v) F x y).
Definition flux F (J : R -> R -> (R * R) * (R * R)) v (b : bool) (x y : R) : R := cross2 (through2 (value2 v) F x y) (mcol (J x y) b).
Definition int2_0 g F f : cell -> R := quad2 g (through2 f F).
(* circulation along an edge *)
Definition int2_inner g F J v (c : cell) : R := quad2 g (circ F J v (along2 c)) c.
(* flux through an edge, in the direction of the increasing other coordinate *)
Definition int2_outer g F J v (c : cell) : R := IZR (orient_out c) * quad2 g (flux F J v (along2 c)) c.
Definition int2_2 g F J f : cell -> R :=
  quad2 g (fun x y => through2 f F x y * cross2 (mcol (J x y) false) (mcol (J x y) true)).
Definition diagonal2 (m : (R * R) * (R * R)) : Prop := snd (fst m) = 0 /\ fst (snd m) = 0.

(* ---------- derivatives ---------- *)
Definition has_grad2 (f : R -> R -> R) (x y : R) (g : plane) : Prop :=
  forall (c : bool -> R -> R) (t : R) (d : plane),
    c false t = x -> c true t = y -> (forall i, derivable_pt_lim (c i) t (comp i d)) ->
    derivable_pt_lim (fun s => f (c false s) (c true s)) t (dot2 g d).
Definition jacobian2_of (F : (R -> R -> R) * (R -> R -> R)) (J : R -> R -> (R * R) * (R * R)) : Prop :=
  forall x y,
    derivable_pt_lim (fun s => fst F s y) x (fst (fst (J x y))) /\ derivable_pt_lim (fun s => fst F x s) y (snd (fst (J x y))) /\
    derivable_pt_lim (fun s => snd F s y) x (fst (snd (J x y))) /\ derivable_pt_lim (fun s => snd F x s) y (snd (snd (J x y))).
(* hxy: the mixed derivatives of the two components, along y of the first
   column and along x of the second *)
Definition mixed (J : R -> R -> (R * R) * (R * R)) (hxy : R -> R -> plane) : Prop :=
  forall x y, 
    derivable_pt_lim (fun s => fst (fst (J x s))) y (fst (hxy x y)) /\ derivable_pt_lim (fun s => snd (fst (J s y))) x (fst (hxy x y)) /\
    derivable_pt_lim (fun s => fst (snd (J x s))) y (snd (hxy x y)) /\ derivable_pt_lim (fun s => snd (snd (J s y))) x (snd (hxy x y)).
(* D: gradients of the two components of v *)
Definition deriv2_of (v : (R -> R -> R) * (R -> R -> R)) (D : R -> R -> plane * plane) : Prop :=
  forall x y, has_grad2 (fst v) x y (fst (D x y)) /\ has_grad2 (snd v) x y (snd (D x y)).
Definition rot2 (D : R -> R -> plane * plane) (x y : R) : R := fst (snd (D x y)) - snd (fst (D x y)).
Definition div2 (D : R -> R -> plane * plane) (x y : R) : R := fst (fst (D x y)) + snd (snd (D x y)).

(* ---------- quadrature ---------- *)
Definition integrates_along2 (g : Grid2) (b : bool) (h : R -> R -> R) : Prop :=
  forall a, if b then integrates (hy g) (sy g) (fun y => h a y) else integrates (hx g) (sx g) (fun x => h x a).
(* two rules give the same integrals between the nodes n *)
Definition agree (n : list R) (r s : list R * list R) (h : R -> R) : Prop :=
  forall i, (S i < length n)%nat ->
    rsum (factor_rule n r (true, i)) (fun pw => h (fst pw) * snd pw) = rsum (factor_rule n s (true, i)) (fun pw => h (fst pw) * snd pw).
Definition agree_along2 (n0 n1 : list R) (r0 r1 s0 s1 : list R * list R) (b : bool) (h : R -> R -> R) : Prop :=
  forall a, if b then agree n1 r1 s1 (fun y => h a y) else agree n0 r0 s0 (fun x => h x a).
