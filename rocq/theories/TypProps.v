(* Properties of types of 2D regions. *)
From Coq Require Import Reals.
From Verif Require Import TriModel TsizeModel TypModel TypSpec TypProofs TypExample.
Local Open Scope R_scope.

(** C158: lines are found parallel iff they have the same direction *)
Theorem C158_parallel : forall a1 a2 b1 b2, a1 <> a2 -> b1 <> b2 ->
  (if_two_lines_parallel a1 a2 b1 b2 = true <-> exists k, 0 < k /\ vec b1 b2 = times2 k (vec a1 a2)).
Proof. exact parallel_ok. Qed.
Print Assumptions C158_parallel.
(** what straight regions are taken for: chaotic iff opposite sides differ in length, an exception iff they do not but the region is no parallelogram of positive orientation; the data of parallelograms are those of their sides; axis-parallel rectangles are orthogonal *)
Theorem C158_classify : forall UL DL UR DR, UL <> DL -> UL <> UR ->
  (classify true UL DL UR DR = rChaos <-> ~ (norm (vec UL DL) = norm (vec UR DR) /\ norm (vec UL UR) = norm (vec DL DR))) /\
  (classify true UL DL UR DR = rRaise <-> (norm (vec UL DL) = norm (vec UR DR) /\ norm (vec UL UR) = norm (vec DL DR)) /\
     ~ (parallelogram UL DL UR DR /\ 0 < cross (vec UL DL) (vec UL UR))) /\
  (forall l u, classify true UL DL UR DR = rOrthogonal l u -> parallelogram UL DL UR DR /\ 0 < cross (vec UL DL) (vec UL UR) /\
     l = norm (vec UL DL) /\ u = norm (vec UL UR) /\
     Rabs (inner (vec UL DL) (vec UL UR)) <= 15 / 100000000 * (l * u) /\ 0 <= snd (vec UL DL) <= 1 / 1000000000000 * l /\ 0 < fst (vec UL DL)) /\
  (forall a l t u, classify true UL DL UR DR = rParallel a l t u -> parallelogram UL DL UR DR /\ 0 < cross (vec UL DL) (vec UL UR) /\
     vec UL DL = times2 l (cos a, sin a) /\ vec UL UR = times2 u (cos (a + t), sin (a + t)) /\ 0 < l /\ 0 < u /\ 0 <= a < 2 * PI /\ 0 < t < PI) /\
  (parallelogram UL DL UR DR -> 0 < fst (vec UL DL) -> snd (vec UL DL) = 0 -> fst (vec UL UR) = 0 -> 0 < snd (vec UL UR) ->
     classify true UL DL UR DR = rOrthogonal (fst (vec UL DL)) (snd (vec UL UR))).
Proof. exact classify_ok. Qed.
Print Assumptions C158_classify.
(** convex regions do not raise *)
Theorem C158_convex : forall UL DL UR DR, UL <> DL -> UL <> UR -> split_by_diagonal UL DL UR DR -> 0 < cross (vec UL DL) (vec UL UR) ->
  classify true UL DL UR DR <> rRaise.
Proof. exact convex_never_raises. Qed.
Print Assumptions C158_convex.
Example C158_convex_ex : split_by_diagonal o0 px py pxy /\ 0 < cross (vec o0 px) (vec o0 py).
Proof. exact square_split. Qed.
(** elements of parallelograms with the same data have the same sides, so the same Jacobian matrix *)
Theorem C158_same_data : forall UL DL UR DR UL' DL' UR' DR' dx dy dx' dy' a l t u, UL <> DL -> UL <> UR -> UL' <> DL' -> UL' <> UR' ->
  classify_element (classify true UL DL UR DR) dx dy = rParallel a l t u -> classify_element (classify true UL' DL' UR' DR') dx' dy' = rParallel a l t u ->
  times2 dx (vec UL DL) = times2 dx' (vec UL' DL') /\ times2 dy (vec UL UR) = times2 dy' (vec UL' UR').
Proof. exact same_data. Qed.
Print Assumptions C158_same_data.
Example C158_same_data_ex : exists a l t u, classify_element (classify true o0 px (1, 1) (2, 1)) (1 / 2) (1 / 3) = rParallel a l t u.
Proof. exact slanted_element. Qed.
Example C158_classify_ex : (o0 <> px /\ o0 <> py /\ classify true o0 px py pxy = rOrthogonal 1 1) /\
  (exists a l t u, classify true o0 px (1, 1) (2, 1) = rParallel a l t u) /\ classify true o0 (1, 1) (0, 1) (1, 0) = rRaise.
Proof. split; [exact (conj o0_px square)|]. split; [exact (proj2 slanted)|exact (proj1 (proj2 crossed))]. Qed.
(** regions taken for orthogonal need not be orthogonal: the angle is compared up to 1.5e-7 *)
Theorem C158_orthogonal_refuted : ~ (forall UL DL UR DR l u, UL <> DL -> UL <> UR -> classify true UL DL UR DR = rOrthogonal l u ->
  inner (vec UL DL) (vec UL UR) = 0).
Proof. exact orthogonal_refuted. Qed.
Print Assumptions C158_orthogonal_refuted.
(** so regions with the same data can have different sides *)
Theorem C158_same_orthogonal_refuted : ~ (forall UL DL UR DR UL' DL' UR' DR' l u, UL <> DL -> UL <> UR -> UL' <> DL' -> UL' <> UR' ->
  classify true UL DL UR DR = rOrthogonal l u -> classify true UL' DL' UR' DR' = rOrthogonal l u -> vec UL DL = vec UL' DL' /\ vec UL UR = vec UL' UR').
Proof. exact same_orthogonal_refuted. Qed.
Print Assumptions C158_same_orthogonal_refuted.
