(* Fields on a 2D element given by cochains: sums of products of nodal and edge
   functions, one for each cell. *)
From Coq Require Import Reals List ZArith.
From Verif Require Import SpaceSpec DiscSpec Disc2Spec ReconModel ReconSpec TriModel TreconSpec Rec2Model.
Import ListNotations.
Open Scope R_scope.

Definition deg2 (s : Space2) : list nat := [pdeg (z0 s); pdeg (z1 s)].
Definition fn2 (s : Space2) (c : cell) (x y : R) : R :=
  match c with [a; b] => factor_fn (z0 s) a x * factor_fn (z1 s) b y | _ => 0 end.
(* the sum over the cells of types ts that are selected *)
Definition expand2 (s : Space2) (ts : list ctype) (sel : cell -> bool) (c : list R) (x y : R) : R :=
  rsum (combine (cells (deg2 s) ts) c) (fun q => if sel (fst q) then snd q * fn2 s (fst q) x y else 0).
Definition edges2 (o : orient) : list ctype := match o with Inner => edges2_inner | Outer => edges2_outer end.
(* component d of a 1-form: the edges along the axis d, true for the second *)
Definition r2hat0 (s : Space2) (c : list R) := expand2 s nodes2 (fun _ => true) c.
Definition r2hat1 (o : orient) (s : Space2) (c : list R) (d : bool) := expand2 s (edges2 o) (fun e => Bool.eqb (along2 e) d) c.
Definition r2hat2 (s : Space2) (c : list R) := expand2 s faces2 (fun _ => true) c.
(* the values of the forms at a point of the element: v with the pull back of
   the cochain *)
Definition field1 (o : orient) (s : Space2) (c : list R) (J : R -> R -> (R * R) * (R * R)) (x y : R) (v : plane) : Prop :=
  tpulls1 o (J x y) v (fun d => r2hat1 o s c d x y).
Definition field2 (s : Space2) (c : list R) (J : R -> R -> (R * R) * (R * R)) (x y : R) (v : R) : Prop := tpulls2 (J x y) v (r2hat2 s c x y).

(* ---------- elements ---------- *)
Definition regular (e : El2) (xi et : list R) : Prop := on_grid2 xi et (fun x y => det2 (el_J e x y) <> 0).
(* the mark 'Orth...' is for diagonal Jacobian matrices *)
Definition orth_ok (e : El2) (xi et : list R) : Prop := el_orth e = true -> on_grid2 xi et (fun x y => diagonal2 (el_J e x y)).
(* all elements have the Jacobian matrices of the first *)
Definition alike (els : list El2) (xi et : list R) : Prop :=
  forall e e', In e els -> In e' els -> on_grid2 xi et (fun x y => el_J e x y = el_J e' x y).

(* ---------- bases ---------- *)
Definition basis2_of (g : Grid2) (s : Space2) : Prop := basis_of (hx g) (z0 s) /\ basis_of (hy g) (z1 s).
Definition exact2_for (g : Grid2) (s : Space2) : Prop := exact_for (hx g) (sx g) (z0 s) /\ exact_for (hy g) (sy g) (z1 s).
Definition grid2_ok (g : Grid2) : Prop :=
  forall x, In x (hx g) \/ In x (hy g) \/ In x (fst (sx g)) \/ In x (fst (sy g)) -> in_ref x.
Definition in_square (P : R -> R -> Prop) : Prop := forall x y, in_ref x -> in_ref y -> P x y.
Definition flip_or (o : orient) : orient := match o with Inner => Outer | Outer => Inner end.
