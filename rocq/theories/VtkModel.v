(* The cells of triangular meshes for vtk, objects/miUsGrid/triangular/mesh/
   miscellaneous/main.py, on the master core.  Conventions as in TriModel;
   the numbering of triangle_and_quad_data (230-361) is that of 0-forms,
   numbering0, line by line. *)
From Coq Require Import List Arith ZArith Bool.
From Verif Require Import TriModel.
Import ListNotations.

(* ---------- quadratic_triangle_data ---------- *)
(* 54-160, one element: as num_element0 but for the nodes inside (92-93) *)
Definition num_elementq (p : nat) (cells : list tri) (M : smap) (done : list arr2) (c cu : nat) (pnum : nat -> Z) : option nstate :=
  match cell_at cells c with
  | (v0, v1, v2) =>
      let st := num_vertex v0 (fun _ j => j =? 0) (mkN cu pnum ones2) in
      bind (num_edge0 p M done c 1 st) (fun st =>
      bind (num_edge0 p M done c 0 st) (fun st =>
      let st := num_vertex v2 (fun i j => (i =? 0) && (j =? p)) st in
      bind (num_edge0 p M done c 2 st) (fun st =>
      Some (num_vertex v1 (fun i j => (i =? p) && (j =? p)) st))))
  end.
Fixpoint num_elementsq (p : nat) (cells : list tri) (M : smap) (cs : list nat) (done : list arr2) (cu : nat) (pnum : nat -> Z)
    : option (list arr2 * nat) :=
  match cs with
  | [] => Some (done, cu)
  | c :: cs' =>
      bind (num_elementq p cells M done c cu pnum) (fun st =>
      num_elementsq p cells M cs' (done ++ [arr st]) (cur st) (pn st))
  end.
Definition numberingq (cells : list tri) (M : smap) : option (list arr2 * nat) :=
  num_elementsq 2 cells M (seq 0 (length cells)) [] 0 (fun _ => (-1)%Z).
(* 165-172: Ne[local_indices], Ne[global_indices] *)
Definition take_at (l : list Z) (ks : list nat) : list Z := map (znth l) ks.
Definition conn6 (A : arr2) : list Z := take_at (ravelF 3 3 A) [0; 8; 6; 5; 7; 3].
Definition gath6 (A : arr2) : list Z := take_at (ravelF 3 3 A) [1; 3; 5; 6; 7; 8].
(* 174-180: CONNECTIONS.ravel('C'), offsets (np.linspace of multiples of 6),
   global_indices and gathering; types is 22 *)
Definition quadratic (cells : list tri) (M : smap) : option (list Z * list nat * list (list Z)) :=
  match numberingq cells M with
  | Some (As, _) => Some (concat (map conn6 As), map (fun k => 6 * (k + 1)) (seq 0 (length As)), map gath6 As)
  | None => None
  end.

(* ---------- triangle_and_quad_data ---------- *)
(* 380-404: the vtk cells of an element in their order, by their nodes *)
Definition tri_nodes (i : nat) : list (nat * nat) := [(0, 0); (i + 1, 1); (i, 1)].
Definition quad_nodes (i j : nat) : list (nat * nat) := [(i, j); (i + 1, j); (i + 1, j + 1); (i, j + 1)].
Definition vtk_cells (p : nat) : list (list (nat * nat)) :=
  map tri_nodes (seq 0 p) ++ flat_map (fun k => map (fun i => quad_nodes i (k + 1)) (seq 0 p)) (seq 0 (p - 1)).
Definition numbers_of (A : arr2) (ns : list (nat * nat)) : list Z := map (fun ij => A (fst ij) (snd ij)) ns.
(* ct after every cell *)
Fixpoint offsets_from (ct : nat) (sizes : list nat) : list nat :=
  match sizes with [] => [] | s :: r => (ct + s) :: offsets_from (ct + s) r end.
(* 368, 406 *)
Definition tq_indices (p : nat) : list nat := Nat.div p 2 :: seq (p + 1) ((p + 1) * (p + 1) - (p + 1)).
Definition tq_gathering (p : nat) (A : arr2) : list Z := take_at (ravelF (p + 1) (p + 1) A) (tq_indices p).
(* 363-413 *)
Record tqdata := mkTQ { tq_conn : list Z; tq_offsets : list nat; tq_types : list nat; tq_gath : list (list Z) }.
Definition tq_data (p : nat) (cells : list tri) (M : smap) : option tqdata :=
  match numbering0 p cells M with
  | Some (As, _) =>
      Some (mkTQ (concat (map (fun A => concat (map (numbers_of A) (vtk_cells p))) As))
                 (offsets_from 0 (concat (map (fun _ => map (fun _ => 3) (seq 0 p) ++ map (fun _ => 4) (seq 0 (p * (p - 1)))) As)))
                 (concat (map (fun _ => repeat 5 p ++ repeat 9 (p * (p - 1))) As))
                 (map (tq_gathering p) As))
  | None => None
  end.
(* 216-217, 243, 419: the cache is for the last p; p >= 1 is asserted *)
Definition tq_cached (cells : list tri) (M : smap) (cache : option (nat * tqdata)) (p : nat) : option tqdata * option (nat * tqdata) :=
  match (match cache with Some (q, d) => if q =? p then Some d else None | None => None end) with
  | Some d => (Some d, cache)
  | None => if 1 <=? p then match tq_data p cells M with Some d => (Some d, Some (p, d)) | None => (None, cache) end
            else (None, cache)
  end.
