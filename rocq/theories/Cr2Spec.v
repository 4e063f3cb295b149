(* Triple products of forms in the plane. *)
From Coq Require Import Reals List ZArith.
From Verif Require Import TfiModel TfiSpec CtModel CtSpec SpaceSpec DiscSpec Disc2Spec ReconModel ReconSpec TriModel TreconSpec Rec2Model Rec2Spec Cr2Model.
Import ListNotations.
Open Scope R_scope.

(* a scalar is a vector orthogonal to the plane *)
Definition up (w : R) : vec := (0, 0, w).
Definition flat (v : plane) : vec := (fst v, snd v, 0).
Definition triple2 (r0 r1 : list R * list R) (J : R -> R -> (R * R) * (R * R)) (w : R -> R -> R) (u e : R -> R -> plane) : R :=
  tquad r0 r1 (fun x y => det2 (J x y) * dot (cross (up (w x y)) (flat (u x y))) (flat (e x y))).
(* w is, on the grid, the scalar of the 0- or 2-form with cochain c *)
Definition scalar_at (k : skind) (s : Space2) (xi et : list R) (J : R -> R -> (R * R) * (R * R)) (c : list R) (w : R -> R -> R) : Prop :=
  length c = length (cells (deg2 s) (match k with sk0 => nodes2 | sk2 => faces2 end)) /\
  on_grid2 xi et (fun x y => match k with sk0 => w x y = r2hat0 s c x y | sk2 => field2 s c J x y (w x y) end).
Definition vector_at (o : orient) (s : Space2) (xi et : list R) (J : R -> R -> (R * R) * (R * R)) (c : list R) (v : R -> R -> plane) : Prop :=
  length c = length (cells (deg2 s) (edges2 o)) /\ on_grid2 xi et (fun x y => field1 o s c J x y (v x y)).
(* the same on triangle e *)
Definition tscalar_at (P : Poly1) (xi et : list R) (c : list R) (w : R -> R -> R) : Prop :=
  length c = (pdeg P * (pdeg P + 1) + 1)%nat /\ on_grid2 xi et (fun x y => w x y = that0 P c x y).
Definition tvector_at (o : orient) (P : Poly1) (M : smap) (e : nat) (xi et : list R) (J : R -> R -> (R * R) * (R * R)) (c : list R) (v : R -> R -> plane) : Prop :=
  length c = (pdeg P * pdeg P + pdeg P * (pdeg P + 1))%nat /\ on_grid2 xi et (fun x y => tpulls1 o (J x y) (v x y) (fun d => that1 o P M e c d x y)).
(* cells of a mesh that are translates of each other *)
Definition translates (pts : list point) (cls : list tri) (c c' : nat) : Prop :=
  forall i, (i < 3)%nat -> let d k := (fst (corner pts cls k i) - fst (corner pts cls k 0), snd (corner pts cls k i) - snd (corner pts cls k 0)) in d c = d c'.
(* all coordinates are multiples of 1 / 10000 *)
Definition on_lattice (pts : list point) : Prop := forall p, In p pts -> exists i j : Z, p = (IZR i / 10000, IZR j / 10000).
(* among the cells cs equal indicators are those of translates *)
Definition shapes_tell (pts : list point) (cls : list tri) (cs : list nat) : Prop :=
  forall c c', In c cs -> In c' cs -> shape pts cls c = shape pts cls c' -> translates pts cls c c'.
