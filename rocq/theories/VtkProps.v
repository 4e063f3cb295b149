(* Properties of the vtk cells of triangular meshes. *)
From Coq Require Import List Arith ZArith.
From Verif Require Import TriModel TriSpec TriExample VtkModel VtkSpec VtkProofs2 VtkExample.
Import ListNotations.

(** C156: the quadratic triangles of vtk have the corners and middles of the elements in the order of vtk; a point has one number in all elements; numbers have no gaps; values at the nodes of global_indices are gathered to the number of the point *)
Theorem C156_quadratic : forall conds pts cells0 cells M,
  make_mesh conds pts cells0 = Some (cells, M) -> no_overlap pts cells ->
  exists C O G n, quadratic cells M = Some (C, O, G) /\ length O = length cells /\ length C = 6 * length cells /\ length G = length cells /\
    let row c := part C (starts O c) (nth c O 0) in
    (forall c, c < length cells -> length (row c) = 6) /\
    (forall c q, c < length cells -> q < 6 -> (0 <= nth q (row c) (-1)%Z < Z.of_nat n)%Z) /\
    (forall c q c' q', c < length cells -> c' < length cells -> q < 6 -> q' < 6 ->
      (nth q (row c) (-1)%Z = nth q' (row c') (-1)%Z <-> q_point (cl cells c) q = q_point (cl cells c') q')) /\
    (forall k, k < n -> exists c q, c < length cells /\ q < 6 /\ nth q (row c) (-1)%Z = Z.of_nat k) /\
    (forall c k i j q, c < length cells -> k < 6 -> q < 6 -> i <= 2 -> i + 3 * j = nth k [1; 3; 5; 6; 7; 8] 0 -> where0 2 cells c i j = q_point (cl cells c) q ->
      nth k (nth c G []) (-1)%Z = nth q (row c) (-1)%Z).
Proof. exact quadratic_ok. Qed.
Print Assumptions C156_quadratic.
Example C156_quadratic_ex :
  make_mesh sq_conds sq_pts sq_given = Some (sq_cells, sq_sides) /\ no_overlap sq_pts sq_cells /\
  sq_quadratic = ([0; 5; 3; 2; 4; 1; 3; 8; 0; 6; 7; 1]%Z, [6; 12], [[0; 1; 2; 3; 4; 5]; [3; 1; 6; 0; 7; 8]]%Z) /\
  q_point (cl sq_cells 0) 5 = q_point (cl sq_cells 1) 5.
Proof. split; [exact sq_mesh|]. split; [exact sq_apart|]. vm_compute. split; reflexivity. Qed.
(** the cells of the data of triangles and quads are the cells of the grids of the elements, with their types, by the numbers of 0-forms of degree p (C111); gathering is that of 0-forms *)
Theorem C156_triangles_quads : forall conds pts cells0 cells M,
  make_mesh conds pts cells0 = Some (cells, M) -> no_overlap pts cells -> forall p, 1 <= p ->
  exists A n D, numbering0 p cells M = Some (A, n) /\ tq_data p cells M = Some D /\
    length (tq_offsets D) = length cells * (p * p) /\ length (tq_types D) = length cells * (p * p) /\ length (tq_gath D) = length cells /\
    (forall c b, c < length cells -> b < p * p ->
      part (tq_conn D) (starts (tq_offsets D) (c * (p * p) + b)) (nth (c * (p * p) + b) (tq_offsets D) 0)
        = map (fun ij => num0 p A c (Z.to_nat (tln0 p (fst ij) (snd ij)))) (grid_cell p b) /\
      nth (c * (p * p) + b) (tq_types D) 0 = (if b / p =? 0 then 5 else 9)) /\
    (forall c, c < length cells -> nth c (tq_gath D) [] = gathering0 p (nth c A ones2)).
Proof. exact tq_ok. Qed.
Print Assumptions C156_triangles_quads.
(** after any sequence of requests the data are those of the degree requested *)
Theorem C156_requests : forall cells M ps p, 1 <= p -> fst (tq_cached cells M (requests_tq cells M ps) p) = tq_data p cells M.
Proof. exact tq_cached_ok. Qed.
Print Assumptions C156_requests.
Example C156_triangles_quads_ex :
  tq_conn (sq_tq 2) = [0; 2; 1;  0; 3; 2;  1; 2; 5; 4;  2; 3; 6; 5;  4; 7; 1;  4; 8; 7;  1; 7; 9; 0;  7; 8; 10; 9]%Z /\
  tq_offsets (sq_tq 2) = [3; 6; 10; 14; 17; 20; 24; 28] /\ tq_types (sq_tq 2) = [5; 5; 9; 9; 5; 5; 9; 9] /\
  tq_gath (sq_tq 2) = [[0; 1; 2; 3; 4; 5; 6]; [4; 1; 7; 8; 0; 9; 10]]%Z /\ grid_cell 2 3 = [(1, 1); (2, 1); (2, 2); (1, 2)] /\
  fst (tq_cached sq_cells sq_sides (requests_tq sq_cells sq_sides [2; 0; 1; 2]) 1) = Some (sq_tq 1) /\ tq_conn (sq_tq 1) = [0; 2; 1; 1; 3; 0]%Z.
Proof. vm_compute. repeat split; reflexivity. Qed.
