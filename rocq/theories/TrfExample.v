(* An element and its neighbour, for the theorems on trace forms. *)
From Coq Require Import Reals List Lra ZArith.
From Verif Require Import TfiModel TfiSpec CtModel CtSpec SpaceSpec DiscModel DiscSpec DiscExample ReconModel ReconSpec ReconExample TrfModel TrfSpec.
Import ListNotations.
Open Scope R_scope.

Definition hF (c : coord) (x y z : R) : R := match c with cX => x + x * y / 2 | cY => y | cZ => z end.
Definition tJ (x y z : R) : mat3 := ((1 + y / 2, x / 2, 0), (0, 1, 0), (0, 0, 1)).
(* the element on the other side of x = 1 *)
Definition hF' (c : coord) (x y z : R) : R := match c with cX => 2 + x + y / 2 | cY => y | cZ => z end.
Definition tJ' (x y z : R) : mat3 := ((1, 1 / 2, 0), (0, 1, 0), (0, 0, 1)).
Example ex_tJ : jacobian_of hF tJ.
Proof.
  intros c x y z. destruct c; cbn; repeat split;
    [apply (quad_lim _ 0 (1 + y / 2) 0)|apply (quad_lim _ x (x / 2) 0)|apply (quad_lim _ (x + x * y / 2) 0 0)
    |apply (quad_lim _ y 0 0)|apply (quad_lim _ 0 1 0)|apply (quad_lim _ y 0 0)
    |apply (quad_lim _ z 0 0)|apply (quad_lim _ z 0 0)|apply (quad_lim _ 0 1 0)]; intros; field.
Qed.
Example ex_tJ' : jacobian_of hF' tJ'.
Proof.
  intros c x y z. destruct c; cbn; repeat split;
    [apply (quad_lim _ (2 + y / 2) 1 0)|apply (quad_lim _ (2 + x) (1 / 2) 0)|apply (quad_lim _ (2 + x + y / 2) 0 0)
    |apply (quad_lim _ y 0 0)|apply (quad_lim _ 0 1 0)|apply (quad_lim _ y 0 0)
    |apply (quad_lim _ z 0 0)|apply (quad_lim _ z 0 0)|apply (quad_lim _ 0 1 0)]; intros; field.
Qed.
Example ex_meets : meets tS hF hF'.
Proof. intros c x y z H. cbn in H. unfold end_pt in H. cbn in H. subst x. destruct c; cbn; [field|reflexivity|reflexivity]. Qed.
Example ex_lengths : lengths_ok exg 2 1 1.
Proof. repeat split. Qed.
Example ex_ends : ends_ok exg 2 1 1.
Proof. repeat split. Qed.
Lemma area_ref x y z s : in_ref y -> area_vec (tJ x y z) s <> zero_vec.
Proof.
  unfold in_ref. intros H. destruct s; unfold area_vec, tJ, col, ent, mrow, cross, zero_vec; cbn [across next TfiModel.get]; intros Z; injection Z as Z0 Z1 Z2; lra.
Qed.
Example ex_area : forall s, on_face s (fun x y z => area_vec (tJ x y z) s <> zero_vec).
Proof. intros s x y z _ Y _ _. apply area_ref. exact Y. Qed.
Example ex_area_q : forall s, on_grid (side_mesh s (qmesh exq)) (fun x y z => area_vec (tJ x y z) s <> zero_vec).
Proof.
  intros s x y z _ Y _. apply area_ref. unfold in_ref. destruct s; cbn in Y; unfold end_pt in Y; cbn in Y;
  repeat match type of Y with _ \/ _ => destruct Y as [Y|Y] end; try destruct Y; try lra; subst; lra.
Qed.
(* a vector with flux through the sides across x and y *)
Definition tv (c : coord) (x y z : R) : R := match c with cX => 4 * z | cY => 1 + x | cZ => 0 end.
Definition tq (x y z : R) : R := x * y + z.
