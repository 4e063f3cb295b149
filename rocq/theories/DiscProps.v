(* C91-C94: discretization of scalars and vectors on 3D elements. *)
From Coq Require Import Reals List ZArith.
From Verif Require Import TfiModel TfiSpec CtModel CtSpec RingSum SpaceModel SpaceSpec SpaceProofs3 DiscModel DiscSpec.
From Verif Require Import DiscProofs DiscProofs2 DiscProofs3 DiscExample.
Import ListNotations.
Open Scope R_scope.

(* the cochain of a 0-form: the values at the nodes, in the order of the
   numbering of the degrees of freedom *)
Theorem C91_nodes : forall g p0 p1 p2 F f,
  length (gx g) = S p0 -> length (gy g) = S p1 -> length (gz g) = S p2 ->
  disc0 (gx g) (gy g) (gz g) F f = map (int0 g F f) (cells [p0; p1; p2] nodes3).
Proof. exact disc0_ok. Qed.
Print Assumptions C91_nodes.
Example C91_nodes_ex : disc0 [-1; 0; 1] [-1; 1] [-1; 1] exF exf = map (int0 exg exF exf) (cells [2; 1; 1] nodes3)%nat.
Proof. exact (disc0_ok exg 2 1 1 exF exf eq_refl eq_refl eq_refl). Qed.

(* ... of a 1-form: the integrals along the edges *)
Theorem C91_edges : forall g p0 p1 p2 F J orth v,
  length (gx g) = S p0 -> length (gy g) = S p1 -> length (gz g) = S p2 ->
  (orth = true -> forall x y z, diagonal (J x y z)) ->
  disc1 (gx g) (gy g) (gz g) p0 p1 p2 (rx g) (ry g) (rz g) F J orth v = map (int1 g F J v) (cells [p0; p1; p2] edges3).
Proof. exact disc1_ok. Qed.
Print Assumptions C91_edges.
Example C91_edges_ex : int1 exg exF exJ exv [(true, 0%nat); (false, 1%nat); (false, 0%nat)] = 2.
Proof. unfold int1, cell_quad, along, pull1, rsum, dot, csum, col, ent, mrow, through, value, exF, exJ, exv; cbn; field. Qed.

(* ... of a 2-form: the fluxes through the faces *)
Theorem C91_faces : forall g p0 p1 p2 F J orth v,
  (orth = true -> forall x y z, diagonal (J x y z)) ->
  disc2 (gx g) (gy g) (gz g) p0 p1 p2 (rx g) (ry g) (rz g) F J orth v = map (int2 g F J v) (cells [p0; p1; p2] faces3).
Proof. exact disc2_ok. Qed.
Print Assumptions C91_faces.
Example C91_faces_ex : int2 exg exF exJ exu [(false, 2%nat); (true, 0%nat); (true, 0%nat)] = 4.
Proof. unfold int2, cell_quad, normal, pull2, rsum, dot, csum, cross, col, ent, mrow, through, value, exF, exJ, exu; cbn; field. Qed.

(* ... of a 3-form: the integrals over the volumes *)
Theorem C91_volumes : forall g p0 p1 p2 F J f,
  disc3 (gx g) (gy g) (gz g) p0 p1 p2 (rx g) (ry g) (rz g) F J f = map (int3 g F J f) (cells [p0; p1; p2] volumes3).
Proof. exact disc3_ok. Qed.
Print Assumptions C91_volumes.
Example C91_volumes_ex : int3 exg exF exJ (fun _ _ z => 1 + z) [(true, 0%nat); (true, 0%nat); (true, 0%nat)] = 4.
Proof. unfold int3, cell_quad, pull3, rsum, det3, through, exF, exJ; cbn; field. Qed.

(* E10 applied to the cochain of f is the cochain of the gradient of f, if the
   rules are exact for the pull back of f along the axes *)
Theorem C92_gradient : forall g p0 p1 p2 F J orth f G E,
  length (gx g) = S p0 -> length (gy g) = S p1 -> length (gz g) = S p2 ->
  jacobian_of F J -> (orth = true -> forall x y z, diagonal (J x y z)) ->
  (forall x y z, has_grad f x y z (value G x y z)) ->
  (forall c, integrates_along g c (through f F)) ->
  E10 [p0; p1; p2] = Some E ->
  mat_times E (disc0 (gx g) (gy g) (gz g) F f)
              (disc1 (gx g) (gy g) (gz g) p0 p1 p2 (rx g) (ry g) (rz g) F J orth G).
Proof. exact disc_grad. Qed.
Print Assumptions C92_gradient.
Example C92_gradient_ex : exists E, E10 [2; 1; 1]%nat = Some E /\
  mat_times E (disc0 [-1; 0; 1] [-1; 1] [-1; 1] exF exf)
              (disc1 [-1; 0; 1] [-1; 1] [-1; 1] 2 1 1 mid mid mid exF exJ false exG).
Proof.
  destruct (E10_acts RRing 2 1 1) as (E & HE & _). exists E. split; [exact HE|].
  apply (disc_grad exg 2 1 1 exF exJ false exf exG E eq_refl eq_refl eq_refl ex_jacobian);
    [discriminate|exact ex_grad|exact ex_along_f|exact HE].
Qed.

(* E21 applied to the cochain of a vector is the cochain of its curl *)
Theorem C93_curl : forall g p0 p1 p2 F J H orth orth' v D E,
  length (gx g) = S p0 -> length (gy g) = S p1 -> length (gz g) = S p2 ->
  jacobian_of F J -> second_derivs J H -> (orth = true \/ orth' = true -> forall x y z, diagonal (J x y z)) ->
  deriv_of v D ->
  (forall c a, c <> a -> integrates_along g a (pull1 F J v c)) ->
  E21 [p0; p1; p2] = Some E ->
  mat_times E (disc1 (gx g) (gy g) (gz g) p0 p1 p2 (rx g) (ry g) (rz g) F J orth v)
              (disc2 (gx g) (gy g) (gz g) p0 p1 p2 (rx g) (ry g) (rz g) F J orth' (curl_field D)).
Proof. exact disc_curl. Qed.
Print Assumptions C93_curl.
Example C93_curl_ex : exists E, E21 [2; 1; 1]%nat = Some E /\
  mat_times E (disc1 [-1; 0; 1] [-1; 1] [-1; 1] 2 1 1 mid mid mid exF exJ false exv)
              (disc2 [-1; 0; 1] [-1; 1] [-1; 1] 2 1 1 mid mid mid exF exJ false (curl_field exD)).
Proof.
  destruct (E21_acts RRing 2 1 1) as (E & HE & _). exists E. split; [exact HE|].
  apply (disc_curl exg 2 1 1 exF exJ exH false false exv exD E eq_refl eq_refl eq_refl ex_jacobian ex_second);
    [intros [|]; discriminate|exact ex_deriv|exact ex_along_v|exact HE].
Qed.

(* E32 applied to the cochain of a vector is the cochain of its divergence *)
Theorem C94_divergence : forall g p0 p1 p2 F J H orth v D E,
  length (gx g) = S p0 -> length (gy g) = S p1 -> length (gz g) = S p2 ->
  jacobian_of F J -> second_derivs J H -> (orth = true -> forall x y z, diagonal (J x y z)) ->
  deriv_of v D ->
  (forall c, integrates_along g c (pull2 F J v c)) ->
  E32 [p0; p1; p2] = Some E ->
  mat_times E (disc2 (gx g) (gy g) (gz g) p0 p1 p2 (rx g) (ry g) (rz g) F J orth v)
              (disc3 (gx g) (gy g) (gz g) p0 p1 p2 (rx g) (ry g) (rz g) F J (div_field D)).
Proof. exact disc_div. Qed.
Print Assumptions C94_divergence.
Example C94_divergence_ex : exists E, E32 [2; 1; 1]%nat = Some E /\
  mat_times E (disc2 [-1; 0; 1] [-1; 1] [-1; 1] 2 1 1 mid mid mid exF exJ false exu)
              (disc3 [-1; 0; 1] [-1; 1] [-1; 1] 2 1 1 mid mid mid exF exJ (div_field exDu)).
Proof.
  destruct (E32_acts RRing 2 1 1) as (E & HE & _). exists E. split; [exact HE|].
  apply (disc_div exg 2 1 1 exF exJ exH false exu exDu E eq_refl eq_refl eq_refl ex_jacobian ex_second);
    [discriminate|exact ex_deriv_u|exact ex_along_u|exact HE].
Qed.
