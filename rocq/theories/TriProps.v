(* Properties of triangular meshes: local numberings, incidence matrices, the
   element map, global numberings and the signs of 1-forms. *)
From Coq Require Import List Arith ZArith Bool.
From Verif Require Import RingSum TriModel TriSpec TriProofs TriProofs7 TriExample.
Import ListNotations.

(** C108: the local numbers of nodes, edges and faces are one to one and gap free; the collapsed edge is one node and has no dof *)
Theorem C108_local_numbering : forall p o,
  (forall i j i' j', i <= p -> j <= p -> i' <= p -> j' <= p ->
     (tln0 p i j = tln0 p i' j' <-> node_at i j = node_at i' j')) /\
  numbers (node_ok p) (fun n => match n with Sing => tln0 p 0 0 | Nd i j => tln0 p i j end) (tnb0 p) /\
  numbers (edge_ok p) (fun e => match e with Dx i j => tln_dx o p i j | Dy i j => tln_dy o p i j end) (tnb1 p) /\
  (forall i, tln_dx o p i 0 = (-1)%Z) /\
  numbers (fun ij : nat * nat => fst ij < p /\ snd ij < p) (fun ij => tln2 p (fst ij) (snd ij)) (tnb2 p).
Proof. exact local_numbering_ok. Qed.
Print Assumptions C108_local_numbering.
Theorem C108_edges : forall o p m, 1 <= p -> m < 3 ->
  (forall e, edge_ok p e -> (In (dofe o p e) (edge_dofs1 o p m) <-> on_edge p m e)) /\
  (forall n, node_ok p n -> (In (dofn p n) (edge_dofs0 p m) <->
     exists e, edge_ok p e /\ on_edge p m e /\ (n = start e \/ n = stop e))).
Proof. exact edge_dofs_ok. Qed.
Print Assumptions C108_edges.
Example C108_ex : map (fun j => map (fun i => tln0 2 i j) [0; 1; 2]) [0; 1; 2] = [[0; 0; 0]; [1; 2; 3]; [4; 5; 6]]%Z /\
  edge_dofs0 2 0 = [0; 3; 6]%Z /\ edge_dofs1 Outer 2 2 = [8; 9]%Z /\ edge_dofs1 Inner 2 0 = [6; 9]%Z.
Proof. repeat split; reflexivity. Qed.

(** C109: the incidence matrices are the boundary operators of the nodes, edges and faces; their product is 0 *)
Theorem C109_incidence : forall o p,
  (forall e n, edge_ok p e -> node_ok p n ->
     tE0 o p (Z.to_nat (match e with Dx i j => tln_dx o p i j | Dy i j => tln_dy o p i j end))
             (Z.to_nat (match n with Sing => tln0 p 0 0 | Nd i j => tln0 p i j end)) = d_node o e n) /\
  (forall i j e, i < p -> j < p -> edge_ok p e ->
     tE1 o p (Z.to_nat (tln2 p i j)) (Z.to_nat (match e with Dx i j => tln_dx o p i j | Dy i j => tln_dy o p i j end)) = d_edge o i j e) /\
  (forall r c, r < tnb2 p -> c < tnb0 p ->
     @bsum ZR nat (seq 0 (tnb1 p)) (fun k => (tE1 o p r k * tE0 o p k c)%Z) = 0%Z).
Proof. exact incidence_ok. Qed.
Print Assumptions C109_incidence.
Example C109_ex : map (fun c => tE0 Outer 2 8 c) (seq 0 7) = [0; 0; 0; 0; 1; -1; 0]%Z /\ map (fun c => tE1 Inner 2 0 c) (seq 0 10) = [-1; 0; 0; 0; -1; 1; 0; 0; 0; 0]%Z.
Proof. split; reflexivity. Qed.

(** C110: the cells of a mesh become counterclockwise; of triangles that do not overlap the element map
    tells exactly the neighbours, with the side and direction, and the only boundary condition of a side *)
Theorem C110_element_map : forall conds pts cells0 cells M, make_mesh conds pts cells0 = Some (cells, M) ->
  length cells = length cells0 /\
  (forall c, c < length cells -> ccw pts (cl cells c) /\
     (cl cells c = cl cells0 c \/ cl cells c = (corner (cl cells0 c) 0, corner (cl cells0 c) 2, corner (cl cells0 c) 1))) /\
  (no_overlap pts cells ->
     describes cells M /\
     (forall c m j s n, c < length cells -> m < 3 -> side_at M c m = SI j s n -> side_at M j n = SI c s m) /\
     (forall c m b, c < length cells -> m < 3 -> side_at M c m = SB b -> one_condition conds pts (cl cells c) m b)).
Proof. exact made_ok. Qed.
Print Assumptions C110_element_map.
(** no mesh: a flat triangle, or a side on the boundary without exactly one condition *)
Theorem C110_failure : forall conds pts cells0,
  (forall t, In t cells0 -> forall k, k < 3 -> corner t k < length pts) ->
  (forall t, In t cells0 -> ~ flat pts t) ->
  exists cells, oriented_cells pts cells0 = Some cells /\
    (no_overlap pts cells -> make_mesh conds pts cells0 = None ->
     exists c m, c < length cells /\ m < 3 /\
      (forall j n, j < length cells -> n < 3 -> j <> c -> ~ same_line cells c m j n) /\
      forall b, ~ one_condition conds pts (cl cells c) m b).
Proof. exact made_none. Qed.
Print Assumptions C110_failure.
Example C110_ex : make_mesh sq_conds sq_pts sq_given = Some (sq_cells, sq_sides) /\ no_overlap sq_pts sq_cells /\ sq_cells <> sq_given.
Proof. split; [exact sq_mesh|split; [exact sq_apart|discriminate]]. Qed.
(** three cells on one line are accepted, and the marks do not answer each other *)
Theorem C110_three_cells_refuted : exists E, element_map [(0,1,2);(0,1,3);(0,1,4)] = Some E /\
  same_line [(0,1,2);(0,1,3);(0,1,4)] 0 0 1 0 /\
  nth 0 (nth 0 E []) None = Some (2, true, 0) /\ nth 0 (nth 2 E []) None = Some (1, true, 0).
Proof. exact three_cells_refuted. Qed.
Print Assumptions C110_three_cells_refuted.
(** so is a cell given twice, if the first one has three neighbours *)
Theorem C110_duplicate_refuted : exists E, element_map [(0,1,2);(3,1,0);(0,2,4);(2,1,5);(0,1,2)] = Some E /\
  nth 0 (nth 0 E []) None = Some (1, true, 2) /\ nth 2 (nth 1 E []) None = Some (4, true, 0).
Proof. exact duplicate_refuted. Qed.
Print Assumptions C110_duplicate_refuted.

(** C111: the numbers of the 0-form dofs are gap free, and equal exactly for the same vertex, the same point of an edge or the same inner node *)
Theorem C111_numbering : forall conds pts cells0 cells M p,
  make_mesh conds pts cells0 = Some (cells, M) -> no_overlap pts cells -> 1 <= p ->
  exists A n, numbering0 p cells M = Some (A, n) /\ length A = length cells /\
    (forall c, c < length cells -> length (gathering0 p (nth c A ones2)) = tnb0 p) /\
    (forall c i j, c < length cells -> i <= p -> j <= p -> (0 <= num0 p A c (Z.to_nat (tln0 p i j)) < Z.of_nat n)%Z) /\
    (forall c i j c' i' j', c < length cells -> c' < length cells -> i <= p -> j <= p -> i' <= p -> j' <= p ->
      (num0 p A c (Z.to_nat (tln0 p i j)) = num0 p A c' (Z.to_nat (tln0 p i' j')) <-> where0 p cells c i j = where0 p cells c' i' j')) /\
    (forall k, k < n -> exists c i j, c < length cells /\ i <= p /\ j <= p /\ num0 p A c (Z.to_nat (tln0 p i j)) = Z.of_nat k).
Proof. exact final0_grid. Qed.
Print Assumptions C111_numbering.
Example C111_ex : sq0 = ([[0; 1; 2; 3; 4; 5; 6]; [4; 1; 7; 8; 0; 9; 10]]%Z, 11).
Proof. vm_compute. reflexivity. Qed.

(** C112: the same for the segments of 1-forms, inner and outer *)
Theorem C112_numbering1 : forall conds pts cells0 cells M p,
  make_mesh conds pts cells0 = Some (cells, M) -> no_overlap pts cells -> 1 <= p -> forall o,
  exists A n, numbering1 o p M = Some (A, n) /\ length A = length cells /\
    (forall c, c < length cells -> length (gathering1 o p (nth c A (ones2, ones2))) = tnb1 p) /\
    (forall c e, c < length cells -> edge_ok p e -> (0 <= num1 o p A c (Z.to_nat (dofe o p e)) < Z.of_nat n)%Z) /\
    (forall c e c' e', c < length cells -> c' < length cells -> edge_ok p e -> edge_ok p e' ->
      (num1 o p A c (Z.to_nat (dofe o p e)) = num1 o p A c' (Z.to_nat (dofe o p e')) <-> where1 p cells c e = where1 p cells c' e')) /\
    (forall k, k < n -> exists c e, c < length cells /\ edge_ok p e /\ num1 o p A c (Z.to_nat (dofe o p e)) = Z.of_nat k).
Proof. exact final1. Qed.
Print Assumptions C112_numbering1.
(** and for the faces of 2-forms *)
Theorem C112_numbering2 : forall p n,
  (forall c k, k < p * p -> (0 <= znth (gathering2 p c) k)%Z /\ (c < n -> (znth (gathering2 p c) k < Z.of_nat (n * (p * p)))%Z)) /\
  (forall c k c' k', k < p * p -> k' < p * p -> znth (gathering2 p c) k = znth (gathering2 p c') k' -> c = c' /\ k = k') /\
  (forall g, g < n * (p * p) -> exists c k, c < n /\ k < p * p /\ znth (gathering2 p c) k = Z.of_nat g).
Proof. exact numbering2_ok. Qed.
Print Assumptions C112_numbering2.
Example C112_ex :
  sq1 Outer = ([[0; 2; 4; 1; 3; 5; 6; 7; 8; 9]; [1; 10; 12; 0; 11; 13; 14; 15; 16; 17]]%Z, 18) /\
  sq1 Inner = ([[0; 1; 2; 3; 4; 6; 8; 5; 7; 9]; [10; 11; 12; 13; 5; 14; 16; 4; 15; 17]]%Z, 18) /\
  gathering2 2 1 = [4; 5; 6; 7]%Z.
Proof. vm_compute. repeat split; reflexivity. Qed.

(** C113: with the transition signs the coboundary of a 0-form given by global values has one value at each global dof *)
Theorem C113_coboundary : forall conds pts cells0 cells M p,
  make_mesh conds pts cells0 = Some (cells, M) -> no_overlap pts cells -> 1 <= p ->
  forall o A0 n0 A1 n1 (x : Z -> Z) c r c' r',
  numbering0 p cells M = Some (A0, n0) -> numbering1 o p M = Some (A1, n1) ->
  c < length cells -> c' < length cells -> r < tnb1 p -> r' < tnb1 p -> num1 o p A1 c r = num1 o p A1 c' r' ->
  @bsum ZR nat (seq 0 (tnb0 p)) (fun k => (incidence0 o p M c r k * x (num0 p A0 c k))%Z) =
  @bsum ZR nat (seq 0 (tnb0 p)) (fun k => (incidence0 o p M c' r' k * x (num0 p A0 c' k))%Z).
Proof. exact coboundary_final. Qed.
Print Assumptions C113_coboundary.
(** what flows out of one cell through a shared dof flows into the other; inner dofs contribute nothing in total, those on sides do *)
Theorem C113_conservation : forall conds pts cells0 cells M p,
  make_mesh conds pts cells0 = Some (cells, M) -> no_overlap pts cells -> 1 <= p ->
  forall o A1 n1 c r, numbering1 o p M = Some (A1, n1) -> c < length cells -> r < tnb1 p ->
    (forall c' r', c' < length cells -> r' < tnb1 p -> c' <> c -> num1 o p A1 c r = num1 o p A1 c' r' ->
       (colsum o p M c r + colsum o p M c' r' = 0)%Z) /\
    ((forall m, m < 3 -> ~ In (Z.of_nat r) (edge_dofs1 o p m)) -> colsum o p M c r = 0%Z) /\
    (forall m, m < 3 -> In (Z.of_nat r) (edge_dofs1 o p m) -> colsum o p M c r <> 0%Z).
Proof. exact colsum_final. Qed.
Print Assumptions C113_conservation.
Theorem C113_exact : forall o p M c r q, r < tnb2 p -> q < tnb0 p ->
  @bsum ZR nat (seq 0 (tnb1 p)) (fun k => (incidence1 o p M c r k * incidence0 o p M c k q)%Z) = 0%Z.
Proof. exact dd_zero. Qed.
Print Assumptions C113_exact.
Example C113_ex :
  map (transition Outer 2 sq_sides 1) (seq 0 10) = [-1; 1; 1; -1; 1; 1; 1; 1; 1; 1]%Z /\
  map (transition Inner 2 sq_sides 1) (seq 0 10) = [1; 1; 1; 1; -1; 1; 1; -1; 1; 1]%Z /\
  map (colsum Outer 2 sq_sides 0) (seq 0 10) = [-1; 0; 1; -1; 0; 1; 0; 0; 1; 1]%Z /\
  map (colsum Outer 2 sq_sides 1) (seq 0 10) = [1; 0; 1; 1; 0; 1; 0; 0; 1; 1]%Z.
Proof. vm_compute. repeat split; reflexivity. Qed.
