(* Properties of areas, angles and quality of triangles. *)
From Coq Require Import List Arith Reals Permutation.
From Verif Require Import TriModel TriSpec TriExample TsizeModel TsizeProofs TsizeExample.
Import ListNotations.
Local Open Scope R_scope.

(** C157: the area is that of the triangle, half the cross product of two sides, also for flat ones *)
Theorem C157_area : forall A B C, tri_area A B C = Some (Rabs (area2 A B C) / 2).
Proof. exact area_ok. Qed.
Print Assumptions C157_area.
(** the area of the domain is the sum of the areas of all elements, however they are distributed, each positive *)
Theorem C157_domain : forall conds pts cells0 cells M cores,
  make_mesh conds pts cells0 = Some (cells, M) -> Permutation (concat cores) (seq 0 (length cells)) ->
  domain_area pts cells cores = Some (fold_right Rplus 0 (map (fun t => area2 (pt pts (corner t 0)) (pt pts (corner t 1)) (pt pts (corner t 2)) / 2) cells)) /\
  forall t, In t cells -> 0 < area2 (pt pts (corner t 0)) (pt pts (corner t 1)) (pt pts (corner t 2)).
Proof. exact domain_area_ok. Qed.
Print Assumptions C157_domain.
Example C157_domain_ex : make_mesh sq_conds sq_pts sq_given = Some (sq_cells, sq_sides) /\ domain_area sq_pts sq_cells [[1]; []; [0]]%nat = Some 1.
Proof. split; [exact sq_mesh|exact sq_area]. Qed.
(** the angles are those between the sides and add up to 180 degrees *)
Theorem C157_angles : forall A B C, A <> B -> B <> C -> A <> C -> exists al be ga, angles_of_triangle A B C = Some (al, be, ga) /\
  al + be + ga = 180 /\ 0 <= al <= 180 /\ 0 <= be <= 180 /\ 0 <= ga <= 180 /\
  (area2 A B C <> 0 -> 0 < al < 180 /\ 0 < be < 180 /\ 0 < ga < 180) /\
  (area2 A B C = 0 -> (al = 0 \/ al = 180) /\ (be = 0 \/ be = 180) /\ (ga = 0 \/ ga = 180)) /\
  ((al = 60 /\ be = 60 /\ ga = 60) <-> (distance B C = distance A C /\ distance A C = distance A B)) /\
  (let dot p q r := (fst q - fst p) * (fst r - fst p) + (snd q - snd p) * (snd r - snd p) in
   dot A B C = cos (al * PI / 180) * (distance A B * distance A C) /\
   dot B C A = cos (be * PI / 180) * (distance B C * distance A B) /\
   dot C A B = cos (ga * PI / 180) * (distance A C * distance B C)).
Proof. exact angles_ok. Qed.
Print Assumptions C157_angles.
(** there are no angles iff two vertices are the same point *)
Theorem C157_no_angles : forall A B C, angles_of_triangle A B C = None <-> A = B \/ B = C \/ A = C.
Proof. exact angles_none. Qed.
Print Assumptions C157_no_angles.
Example C157_angles_ex : eqA <> eqB /\ eqB <> eqC /\ eqA <> eqC /\ area2 eqA eqB eqC <> 0.
Proof. destruct eq_distinct as (N1 & N2 & N3). repeat split; try assumption. exact eq_area. Qed.
(** the quality is between 0 and 1, 1 exactly for equilateral and 0 exactly for flat triangles *)
Theorem C157_quality : forall A B C, A <> B -> B <> C -> A <> C -> exists x, quality A B C = Some x /\ 0 <= x <= 1 /\
  (x = 1 <-> distance B C = distance A C /\ distance A C = distance A B) /\ (x = 0 <-> area2 A B C = 0).
Proof. exact quality_ok. Qed.
Print Assumptions C157_quality.
Example C157_quality_ex : quality eqA eqB eqC = Some 1 /\ quality (0, 0) (1, 0) (3, 0) = Some 0.
Proof. split; [exact eq_quality|exact flat_quality]. Qed.
