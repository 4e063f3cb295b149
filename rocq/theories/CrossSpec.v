(* Triple products of forms and arrays. *)
From Coq Require Import Reals List ZArith.
From Verif Require Import TfiModel TfiSpec CtModel CtSpec SpaceSpec DiscSpec ReconModel ReconSpec CrossModel.
Import ListNotations.
Open Scope R_scope.

Definition cells_of (k : kind) (s : Space3) : list cell := cells (degrees s) (match k with k1 => edges3 | k2 => faces3 end).
(* v is, on the grid, the vector of the form of degree k with cochain c *)
Definition form_at (k : kind) (s : Space3) (m : Mesh3) (J : R -> R -> R -> mat3) (c : list R) (v : R -> R -> R -> vec) : Prop :=
  length c = length (cells_of k s) /\
  on_grid m (fun x y z =>
    match k with
    | k1 => pulls1 (J x y z) (v x y z) (fun d => hat1 s c d x y z)
    | k2 => pulls2 (J x y z) (v x y z) (fun d => hat2 s c d x y z)
    end).
(* sum of M[i][j][k] a[i] b[j] c[k] *)
Definition tri (M : list (list (list R))) (a b c : list R) : R :=
  rsum (combine M a) (fun Ma => rsum (combine (fst Ma) b) (fun Mb => rsum (combine (fst Mb) c) (fun mc =>
    fst mc * snd Ma * snd Mb * snd mc))).
Definition dotl (a b : list R) : R := rsum (combine a b) (fun ab => fst ab * snd ab).
(* the integral of (w x u) . e over the element by the rules *)
Definition triple (q : Rule3) (J : R -> R -> R -> mat3) (w u e : R -> R -> R -> vec) : R :=
  quad3 q (fun x y z => det3 (J x y z) * dot (cross (w x y z) (u x y z)) (e x y z)).
(* the determinant is the same at all points of the rules *)
Definition constant_det (q : Rule3) (J : R -> R -> R -> mat3) : Prop :=
  exists d, on_grid (qmesh q) (fun x y z => det3 (J x y z) = d).
Definition nonzero_det (q : Rule3) (J : R -> R -> R -> mat3) : Prop := on_grid (qmesh q) (fun x y z => det3 (J x y z) <> 0).
Definition orth_ok (q : Rule3) (J : R -> R -> R -> mat3) (orth : bool) : Prop :=
  orth = true -> on_grid (qmesh q) (fun x y z => diagonal (J x y z)).
(* B is the inverse of the n by n matrix A *)
Definition inverse_of (A B : list (list R)) (n : nat) : Prop :=
  has_shape A n n /\ has_shape B n n /\ (forall c, length c = n -> times A (times B c) = c) /\ (forall c, length c = n -> times B (times A c) = c).
Definition has_shape3 (M : list (list (list R))) (ni nj nk : nat) : Prop := length M = ni /\ forall Mi, In Mi M -> has_shape Mi nj nk.
(* the points are inside the element *)
Definition inside_grid (m : Mesh3) : Prop := on_grid m (fun x y z => -1 < x < 1 /\ -1 < y < 1 /\ -1 < z < 1).
