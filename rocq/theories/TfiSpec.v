(* What a region interpolation has to be. *)
From Coq Require Import Reals List.
From Verif Require Import TfiModel TransModel Edge2Model.
Import ListNotations.
Open Scope R_scope.

Definition in01 (x : R) : Prop := 0 <= x <= 1.

(* the six faces of the unit cube and the place of a face point in the cube *)
Inductive face := fN | fS | fW | fE | fB | fF.
Definition place (d : face) (p q : R) : R * R * R :=
  match d with
  | fN => (0, p, q) | fS => (1, p, q)
  | fW => (p, 0, q) | fE => (p, 1, q)
  | fB => (p, q, 0) | fF => (p, q, 1)
  end.
Definition side_of (g : Sides) (d : face) : Side :=
  match d with
  | fN => gN g | fS => gS g | fW => gW g | fE => gE g | fB => gB g | fF => gF g
  end.
Definition at3 {A} (f : R -> R -> R -> A) (x : R * R * R) : A :=
  match x with (r, s, t) => f r s t end.

(* two sides give the same point wherever their faces meet *)
Definition agree (g : Sides) : Prop :=
  forall c d d' p q p' q', in01 p -> in01 q -> in01 p' -> in01 q' ->
    place d p q = place d' p' q' ->
    sval (side_of g d) c p q = sval (side_of g d') c p' q'.

(* the map of the cube is on each face the map of that side *)
Definition restricts (g : Sides) (f : coord -> R -> R -> R -> R) : Prop :=
  forall c d p q, in01 p -> in01 q -> at3 (f c) (place d p q) = sval (side_of g d) c p q.

(* the derivatives given with the sides are theirs *)
Definition side_derivs (g : Sides) : Prop :=
  forall d c p q,
    derivable_pt_lim (fun x => sval (side_of g d) c x q) p (sdp (side_of g d) c p q) /\
    derivable_pt_lim (fun x => sval (side_of g d) c p x) q (sdq (side_of g d) c p q).

Definition mrow (m : mat3) (c : coord) : R * R * R :=
  match m with (a, b, d) => match c with cX => a | cY => b | cZ => d end end.
(* m is the matrix of the partial derivatives of f *)
Definition jacobian_of (f : coord -> R -> R -> R -> R) (m : R -> R -> R -> mat3) : Prop :=
  forall c r s t, match mrow (m r s t) c with
    | (fr, fs, ft) =>
        derivable_pt_lim (fun x => f c x s t) r fr /\
        derivable_pt_lim (fun x => f c r x t) s fs /\
        derivable_pt_lim (fun x => f c r s x) t ft
    end.

(* the determinant by the rule of Sarrus *)
Definition det3 (m : mat3) : R :=
  match m with
  | ((a, b, c), (d, e, f), (g, h, i)) =>
      a * e * i + b * f * g + c * d * h - c * e * g - b * d * i - a * f * h
  end.
Definition det2 (m : mat2) : R := match m with ((a, b), (c, d)) => a * d - b * c end.

(* a map of the unit cube: no two points have the same image, its image *)
Definition incube (r s t : R) : Prop := in01 r /\ in01 s /\ in01 t.
Definition one_to_one (f : coord -> R -> R -> R -> R) : Prop :=
  forall r s t r' s' t', incube r s t -> incube r' s' t' ->
    (forall c, f c r s t = f c r' s' t') -> r = r' /\ s = s' /\ t = t'.
Definition has_image (f : coord -> R -> R -> R -> R) (A : R -> R -> R -> Prop) : Prop :=
  forall x y z, A x y z <-> exists r s t, incube r s t /\ f cX r s t = x /\ f cY r s t = y /\ f cZ r s t = z.
Definition insquare (r s : R) : Prop := in01 r /\ in01 s.
Definition one_to_one2 (f : bool -> R -> R -> R) : Prop :=
  forall r s r' s', insquare r s -> insquare r' s' ->
    (forall i, f i r s = f i r' s') -> r = r' /\ s = s'.
Definition has_image2 (f : bool -> R -> R -> R) (A : R -> R -> Prop) : Prop :=
  forall x y, A x y <-> exists r s, insquare r s /\ f false r s = x /\ f true r s = y.
Definition jacobian2_of (f : bool -> R -> R -> R) (m : R -> R -> mat2) : Prop :=
  forall r s, match m r s with
    | ((xr, xs), (yr, ys)) =>
        derivable_pt_lim (fun x => f false x s) r xr /\ derivable_pt_lim (fun x => f false r x) s xs /\
        derivable_pt_lim (fun x => f true x s) r yr /\ derivable_pt_lim (fun x => f true r x) s ys
    end.

(* trilinear interpolation of the eight corners *)
Definition corner (k : Corners) (i j l : bool) : point :=
  match l, j, i with
  | false, false, false => k0 k | false, false, true => k1 k
  | false, true, false => k2 k | false, true, true => k3 k
  | true, false, false => k4 k | true, false, true => k5 k
  | true, true, false => k6 k | true, true, true => k7 k
  end.
Definition wgt (b : bool) (x : R) : R := if b then x else 1 - x.
Definition bools := [false; true].
Definition rsum (l : list R) : R := fold_right Rplus 0 l.
Definition trilinear (k : Corners) (c : coord) (r s t : R) : R :=
  rsum (flat_map (fun i => flat_map (fun j => map (fun l =>
     wgt i r * wgt j s * wgt l t * get (corner k i j l) c) bools) bools) bools).

(* the box with two opposite corners lo, hi *)
Definition box (lo hi : point) : Corners :=
  let pt (i j l : bool) := (if i then get hi cX else get lo cX,
                            if j then get hi cY else get lo cY,
                            if l then get hi cZ else get lo cZ) in
  mkCorners (pt false false false) (pt true false false) (pt false true false) (pt true true false)
            (pt false false true) (pt true false true) (pt false true true) (pt true true true).

(* a rule on [-1,1]^3 exact for constants and for the coordinates *)
Definition qsum (f : R -> R -> R -> R) (quad : list (R * R * R * R)) : R :=
  rsum (map (fun q => match q with (x, y, z, w) => f x y z * w end) quad).
Definition exact_linear (quad : list (R * R * R * R)) : Prop :=
  qsum (fun _ _ _ => 1) quad = 8 /\ qsum (fun x _ _ => x) quad = 0 /\
  qsum (fun _ y _ => y) quad = 0 /\ qsum (fun _ _ z => z) quad = 0.

(* plane curves *)
Definition starts_at (c : curve) (a : R * R) : Prop := cx c 0 = fst a /\ cy c 0 = snd a.
Definition ends_at (c : curve) (b : R * R) : Prop := cx c 1 = fst b /\ cy c 1 = snd b.
Definition dist2 (a : R * R) (x y : R) : R := (x - fst a) * (x - fst a) + (y - snd a) * (y - snd a).
(* an arc edge is well placed: its two ends are at the same distance from its centre, not at it *)
Definition well_placed (e : edge_type) (a b : R * R) : Prop :=
  match e with
  | eStraight => True
  | eACW c | eAACW c => dist2 c (fst a) (snd a) = dist2 c (fst b) (snd b) /\ 0 < dist2 c (fst a) (snd a)
  end.
Definition region_well_placed (g : Region2) : Prop :=
  well_placed (tU g) (kUL g) (kUR g) /\ well_placed (tD g) (kDL g) (kDR g) /\
  well_placed (tL g) (kUL g) (kDL g) /\ well_placed (tR g) (kUR g) (kDR g).
(* the cross product of the radius and the velocity: negative for a clockwise motion round c *)
Definition spin (c : R * R) (k dk : curve) (o : R) : R :=
  (cx k o - fst c) * cy dk o - (cy k o - snd c) * cx dk o.
