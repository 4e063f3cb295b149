(** Property theorems: where node and edge elements are, the types of edge elements, and the numbering of edge forms. *)
From Coq Require Import List Arith Bool Lia Sorted.
From Verif Require Import Prelude SpaceModel SpaceSpec MeshModel MeshSpec MeshMapSpec MeshProofs MeshMapModel TraceModel TraceSpec NumModel NumSpec NumProps EdgeModel EdgeSpec EdgeProofs4.
Import ListNotations.

(** C60 for edge elements: for every element map cut over cores with numbered edge elements, the table of types of every core has,
    for each edge element of its elements, the numbers of edge elements of each direction with smaller number, all cores together *)
Theorem C60_edge_types : forall ms N, map fst (concat ms) = seq 0 N -> (forall e row, In (e, row) (concat ms) -> length row = 6) ->
  forall gms G ess, edge_elements ms = Some (gms, G) -> locations 4 edge_sides ms gms = Some ess ->
  exists dir tas, edge_amounts G ess = Some tas /\ (forall e j t, entry (concat gms) e j t -> dir t = j / 4) /\
    Forall2 (fun g ta => NoDup (map fst ta) /\ forall t c, In (t, c) ta <-> (exists e j, entry g e j t) /\ c = (faces_before dir 0 t, faces_before dir 1 t, faces_before dir 2 t)) gms tas.
Proof. exact edge_types_ok. Qed.
Print Assumptions C60_edge_types.
(** so the numbering of edge forms, D d dofs on each edge of direction d: every element has all its dofs; two dofs are the same iff they
    are the same dof of the same edge element; the numbers are 0..n-1; each core counts its dofs right *)
Theorem C60_edge_dofs : forall ms N, map fst (concat ms) = seq 0 N -> (forall e row, In (e, row) (concat ms) -> length row = 6) ->
  forall gms G D, edge_elements ms = Some (gms, G) ->
  exists outs n, edge_numbering D ms = Some outs /\ map (map fst) (map fst outs) = map (map fst) ms /\
    (let gm := concat (map fst outs) in
     (forall e v, In (e, v) gm -> length v = 4 * (D 0 + D 1 + D 2)) /\
     (forall e j i d f k l d', edge_dof D gm e j i d -> edge_dof D gm f k l d' -> d = d' <-> i = l /\ exists t, entry (concat gms) e j t /\ entry (concat gms) f k t) /\
     (forall d, d < n <-> exists e j i, edge_dof D gm e j i d)) /\
    Forall (fun o => snd o = length (nodup Nat.eq_dec (flat_map snd (fst o)))) outs.
Proof. exact edge_numbering_ok. Qed.
Print Assumptions C60_edge_dofs.
(** in a mesh of one region (the setting of C61): the dofs of two places are the same iff the edges are the same edge of the box *)
Theorem C60_box_edges : forall corner bnames bsides m g lay sc bps pairs,
  (forall b, In b bnames -> 1 <= b) -> (forall x, In x bsides -> In (fst x) bnames /\ snd (snd x) < 6) -> region_map corner 1 bnames bsides = Some m ->
  length lay = 3 -> Forall (fun n => 1 <= n) lay -> lens_ok (prodl lay) (sc 0) -> boundary_pairs bsides bps = Some pairs ->
  let num r := option_map fst (region_numbering g [lay] sc r) in let rm r i := name_of (m r i) in
  forall SIZE rs ms, partition SIZE (prodl lay) rs -> Forall2 (fun els mm => core_map num [lay] rm bnames pairs els = Some mm) rs ms ->
  forall per : nat -> bool, (forall a, a < 3 -> (per a = true <-> periodic_axis pairs a)) -> (forall a, a < 3 -> periodic_axis pairs a -> 2 <= nth a lay 0) ->
  forall D, exists A para outs n, region_numbering g [lay] sc 0 = Some (A, para) /\ edge_numbering D ms = Some outs /\ map (map fst) (map fst outs) = rs /\
    (let gm := concat (map fst outs) in
     (forall e v, In (e, v) gm -> length v = 4 * (D 0 + D 1 + D 2)) /\
     (forall e j x i d f k y l d', edge_dof D gm e j i d -> edge_dof D gm f k l d' -> nth_error (cells [1; 1; 1] edges3) j = Some x -> nth_error (cells [1; 1; 1] edges3) k = Some y ->
        d = d' <-> i = l /\ same_box lay [1; 1; 1] per (at_ A) (e, x) (f, y)) /\
     (forall d, d < n <-> exists e j i, edge_dof D gm e j i d)).
Proof. exact one_edge_dofs. Qed.
Print Assumptions C60_box_edges.
(** two elements on two cores, periodic along the first axis: 1-edge forms of degree (2, 1, 3) *)
Example C60_edge_ex : match one_maps [2; 1; 1] [(1, 2)] [[0]; [1]] with Some ms => edge_numbering (D1 [2; 1; 3]) ms | None => None end =
  Some [([(0, seq 0 24)], 24); ([(1, [24; 25; 28; 29; 26; 27; 30; 31; 9; 8; 11; 10; 15; 16; 17; 12; 13; 14; 21; 22; 23; 18; 19; 20])], 24)].
Proof. vm_compute. reflexivity. Qed.

(** C83: every core has one record for each edge element of its elements, and it is right if the edge is at no more than four places
    of elements: all its places in order, all elements containing it, all boundaries it is on, each once *)
Theorem C83_edges : forall ms N, map fst (concat ms) = seq 0 N -> (forall e row, In (e, row) (concat ms) -> length row = 6) ->
  forall gms G, edge_elements ms = Some (gms, G) -> exists ess, locations 4 edge_sides ms gms = Some ess /\
  Forall2 (fun g es => NoDup (map fst es) /\ (forall t, In t (map fst es) <-> exists e i, entry g e i t) /\
    forall t r, In (t, r) es -> places r <> [] /\ (forall e i, In (e, i) (places r) -> entry (concat gms) e i t) /\ (at_most_places (concat gms) 4 t -> right_record edges3 (concat ms) (concat gms) t r)) gms ess.
Proof. exact edge_locations. Qed.
Print Assumptions C83_edges.
(** the same for nodes, with eight places *)
Theorem C83_nodes : forall ms N, map fst (concat ms) = seq 0 N -> (forall e row, In (e, row) (concat ms) -> length row = 6) ->
  forall gms G, node_elements ms = Some (gms, G) -> exists ess, locations 8 node_sides ms gms = Some ess /\
  Forall2 (fun g es => NoDup (map fst es) /\ (forall t, In t (map fst es) <-> exists e i, entry g e i t) /\
    forall t r, In (t, r) es -> places r <> [] /\ (forall e i, In (e, i) (places r) -> entry (concat gms) e i t) /\ (at_most_places (concat gms) 8 t -> right_record nodes3 (concat ms) (concat gms) t r)) gms ess.
Proof. exact node_locations. Qed.
Print Assumptions C83_nodes.
(** in a mesh of one region, periodic or not, all records are right *)
Theorem C83_box : forall corner bnames bsides m g lay sc bps pairs,
  (forall b, In b bnames -> 1 <= b) -> (forall x, In x bsides -> In (fst x) bnames /\ snd (snd x) < 6) -> region_map corner 1 bnames bsides = Some m ->
  length lay = 3 -> Forall (fun n => 1 <= n) lay -> lens_ok (prodl lay) (sc 0) -> boundary_pairs bsides bps = Some pairs ->
  let num r := option_map fst (region_numbering g [lay] sc r) in let rm r i := name_of (m r i) in
  forall SIZE rs ms, partition SIZE (prodl lay) rs -> Forall2 (fun els mm => core_map num [lay] rm bnames pairs els = Some mm) rs ms ->
  forall per : nat -> bool, (forall a, a < 3 -> (per a = true <-> periodic_axis pairs a)) -> (forall a, a < 3 -> periodic_axis pairs a -> 2 <= nth a lay 0) ->
  exists gn Gn ge Ge rn re, node_elements ms = Some (gn, Gn) /\ edge_elements ms = Some (ge, Ge) /\
    locations 8 node_sides ms gn = Some rn /\ locations 4 edge_sides ms ge = Some re /\
    Forall2 (fun g es => NoDup (map fst es) /\ (forall t, In t (map fst es) <-> exists e i, entry g e i t) /\ forall t r, In (t, r) es -> right_record nodes3 (concat ms) (concat gn) t r) gn rn /\
    Forall2 (fun g es => NoDup (map fst es) /\ (forall t, In t (map fst es) <-> exists e i, entry g e i t) /\ forall t r, In (t, r) es -> right_record edges3 (concat ms) (concat ge) t r) ge re.
Proof. exact one_locations. Qed.
Print Assumptions C83_box.
Example C83_ex : match one_maps [2; 1; 1] [] [[0]; [1]] with
  | Some ms => match node_elements ms with
               | Some (gn, _) => option_map (map (fun es => dget Nat.eqb es 1)) (locations 8 node_sides ms gn)
               | None => None
               end
  | None => None
  end = Some [Some (mkPrec [(0, 1); (1, 0)] [0; 1] [3]); Some (mkPrec [(0, 1); (1, 0)] [0; 1] [3])].
Proof. vm_compute. reflexivity. Qed.
(** eight regions around a line, like the sectors of a disk; each side beside no region is given to one boundary *)
Definition sector_corner (r k : nat) : nat :=
  let x := k mod 2 in let y := (k / 2) mod 2 in let ray := 1 + r in let ray' := 1 + (r + 1) mod 8 in let out := 10 + r in
  100 * (k / 4) + nth (x + 2 * y) (nth (r mod 4) [[0; ray; ray'; out]; [ray'; 0; out; ray]; [out; ray'; ray; 0]; [ray; out; 0; ray']] []) 0.
Definition sector_bs : list (nat * (nat * nat)) :=
  filter (fun x => length (attached_regions sector_corner 8 (fst (snd x)) (snd (snd x))) =? 0) (flat_map (fun r => map (fun i => (8, (r, i))) (seq 0 6)) (seq 0 8)).
Definition sector_map (lays : list (list nat)) : option emap :=
  match region_map sector_corner 8 [8] sector_bs, boundary_pairs sector_bs [] with
  | Some m, Some pairs => core_map (fun r => option_map fst (region_numbering (fun _ _ => 0) lays (fun _ => OrderF) r)) lays (fun r i => name_of (m r i)) [8] pairs (seq 0 (sum (map prodl lays)))
  | _, _ => None
  end.
(** the edge in the middle is edge 8, in all eight elements; its record only has the last four *)
Theorem C83_lost_refuted : exists m gms G es r, sector_map (repeat [1; 1; 1] 8) = Some m /\ edge_elements [m] = Some (gms, G) /\ locations 4 edge_sides [m] gms = Some [es] /\
  In (8, r) es /\ entry (concat gms) 0 8 8 /\ shared r = [4; 5; 6; 7] /\ ~ right_record edges3 m (concat gms) 8 r.
Proof.
  do 3 eexists. exists (match sector_map (repeat [1; 1; 1] 8) with Some m => match edge_elements [m] with Some (gms, G) => match locations 4 edge_sides [m] gms with Some [es] => es | _ => [] end | None => [] end | None => [] end).
  exists (mkPrec [(4, 8); (5, 9); (6, 11); (7, 10)] [4; 5; 6; 7] []). split; [vm_compute; reflexivity|]. split; [vm_compute; reflexivity|]. split; [vm_compute; reflexivity|].
  split; [vm_compute; auto 100|]. set (gm := concat _). assert (E : entry gm 0 8 8) by (eexists; split; [left; reflexivity|reflexivity]).
  split; [exact E|]. split; [reflexivity|]. intros (_ & H & _). apply H in E. cbn in E. repeat (destruct E as [E|E]; [discriminate|]). exact E.
Qed.
Print Assumptions C83_lost_refuted.
