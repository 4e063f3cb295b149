(* Strain, rotation, the Q and lambda-2 criteria of Jeong and Hussain. *)
From Coq Require Import Reals List.
From Verif Require Import TfiModel TfiSpec CtModel CtSpec SpaceSpec DiscSpec ReconModel ReconSpec CrossModel CrossSpec VdModel.
Import ListNotations.
Open Scope R_scope.

Definition symm3 (M : mat3) : Prop := forall i j, ent M i j = ent M j i.
Definition skew3 (M : mat3) : Prop := forall i j, ent M i j = - ent M j i.
(* entry i, j of the product *)
Definition prod3 (A B : mat3) (i j : coord) : R := csum (fun k => ent A i k * ent B k j).
(* M is S^2 + O^2 *)
Definition squares (S O M : mat3) : Prop := forall i j, ent M i j = prod3 S S i j + prod3 O O i j.
(* G = S + O with S symmetric and O skew *)
Definition splits (G S O : mat3) : Prop := symm3 S /\ skew3 O /\ forall i j, ent G i j = ent S i j + ent O i j.
(* a, b, c: the eigenvalues with their multiplicities *)
Definition eigen3 (M : mat3) (e : R * R * R) : Prop :=
  forall t, match M, e with
  | ((m00, m01, m02), (m10, m11, m12), (m20, m21, m22)), (a, b, c) =>
      det3 ((t - m00, - m01, - m02), (- m10, t - m11, - m12), (- m20, - m21, t - m22)) = (t - a) * (t - b) * (t - c)
  end.
(* the second invariant of G: half of (tr G)^2 - tr G^2, for tr G = 0 *)
Definition Q_crit (G : mat3) : R := - (1 / 2) * csum (fun i => csum (fun j => ent G i j * ent G j i)).
(* l is the second of a, b, c in order *)
Definition second_of (e : R * R * R) (l : R) : Prop :=
  match e with (a, b, c) => exists x y, x <= l <= y /\ (forall t, (t - a) * (t - b) * (t - c) = (t - x) * (t - l) * (t - y)) end.
(* the degree of the form; the nodes of a grid *)
Definition kd (k : vkind) : kind := match k with vk1 => k1 | vk2 => k2 end.
Definition grid_mesh (g : Grid) : Mesh3 := mkMesh3 (gx g) (gy g) (gz g).
(* component i of v is the function of a 0-form *)
Definition in_space0 (s : Space3) (F : coord -> R -> R -> R -> R) (v : coord -> R -> R -> R -> R) : Prop :=
  forall i, exists c, length c = length (cells (degrees s) nodes3) /\ in_element (fun x y z => through (v i) F x y z = hat0 s c x y z).
