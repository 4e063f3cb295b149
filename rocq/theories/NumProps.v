(** Properties of the naive numbering of standard forms and of node and edge elements. *)
From Coq Require Import List Arith Bool Lia Relations.
From Verif Require Import Prelude SpaceModel SpaceSpec MeshModel MeshSpec MeshProofs MeshMapModel MeshMapSpec NumModel NumSpec NumProofs3 NumProofs4 NumProofs5.
Import ListNotations.

(** the cells carrying the dofs of 0-forms, 1-forms (inner in 2D), 2-forms (outer 1-forms in 2D) *)
Definition dof_types (k : nform) (d : nat) : list ctype := match k with F0 => node_types d | F1 => edge_types d | F2 => face_types d end.

(** C61: on a box of elements, periodic or not along each axis, in 2D or 3D, with any element numbering increasing along the axes and any
    distribution over cores, the numbering succeeds and two dofs get the same number exactly if they are the same cell of the box *)
Theorem C61_box : forall k lay p per num ms N, length lay = length p -> Forall (fun n => 1 <= n) p ->
  (forall a, a < length p -> per a = true -> 2 <= nth a lay 0) -> bijective lay 0 N num -> increasing lay num ->
  map fst (concat ms) = seq 0 N -> (forall e row, In (e, row) (concat ms) -> length row = 2 * length p) ->
  (forall idx ax up f, Forall2 lt idx lay -> ax < length p -> (nbr_of (concat ms) (num idx) ax up f <-> exists idx', Forall2 lt idx' lay /\ f = num idx' /\ box_next lay per idx ax up idx')) ->
  exists gms, naive k p ms = Some gms /\ map (map fst) gms = map (map fst) ms /\ total p (dof_types k (length p)) N (concat gms) /\
    conforming p (dof_types k (length p)) N (concat gms) (same_box lay p per num).
Proof. exact box_conforming. Qed.
Print Assumptions C61_box.
(** the meshes of one region as they are made, on any number of cores: the numbers are 0 .. N - 1 for the N cells of the box *)
Theorem C61_mesh : forall corner bnames bsides m g lay sc bps pairs,
  (forall b, In b bnames -> 1 <= b) -> (forall x, In x bsides -> In (fst x) bnames /\ snd (snd x) < 6) -> region_map corner 1 bnames bsides = Some m ->
  length lay = 3 -> Forall (fun n => 1 <= n) lay -> lens_ok (prodl lay) (sc 0) -> boundary_pairs bsides bps = Some pairs ->
  let num r := option_map fst (region_numbering g [lay] sc r) in let rm r i := name_of (m r i) in
  forall SIZE rs ms, partition SIZE (prodl lay) rs -> Forall2 (fun els mm => core_map num [lay] rm bnames pairs els = Some mm) rs ms ->
  forall per : nat -> bool, (forall a, a < 3 -> (per a = true <-> periodic_axis pairs a)) ->
  forall k p, length p = 3 -> Forall (fun n => 1 <= n) p -> (forall a, a < 3 -> periodic_axis pairs a -> 2 <= nth a lay 0) ->
  exists A para gms, region_numbering g [lay] sc 0 = Some (A, para) /\ naive k p ms = Some gms /\ map (map fst) gms = map (map fst) ms /\
    total p (dof_types k 3) (prodl lay) (concat gms) /\ consecutive (concat gms) (box_count lay p per (dof_types k 3)) /\
    conforming p (dof_types k 3) (prodl lay) (concat gms) (same_box lay p per (at_ A)).
Proof. exact one_region. Qed.
Print Assumptions C61_mesh.
(** the node and edge elements of such meshes: one for every node and edge of the box, and GLOBAL_num is their number *)
Theorem C61_elements : forall corner bnames bsides m g lay sc bps pairs,
  (forall b, In b bnames -> 1 <= b) -> (forall x, In x bsides -> In (fst x) bnames /\ snd (snd x) < 6) -> region_map corner 1 bnames bsides = Some m ->
  length lay = 3 -> Forall (fun n => 1 <= n) lay -> lens_ok (prodl lay) (sc 0) -> boundary_pairs bsides bps = Some pairs ->
  let num r := option_map fst (region_numbering g [lay] sc r) in let rm r i := name_of (m r i) in
  forall SIZE rs ms, partition SIZE (prodl lay) rs -> Forall2 (fun els mm => core_map num [lay] rm bnames pairs els = Some mm) rs ms ->
  forall per : nat -> bool, (forall a, a < 3 -> (per a = true <-> periodic_axis pairs a)) -> (forall a, a < 3 -> periodic_axis pairs a -> 2 <= nth a lay 0) ->
  exists A para gn ge, region_numbering g [lay] sc 0 = Some (A, para) /\
    node_elements ms = Some (gn, box_count lay [1; 1; 1] per nodes3) /\ total [1; 1; 1] nodes3 (prodl lay) (concat gn) /\ conforming [1; 1; 1] nodes3 (prodl lay) (concat gn) (same_box lay [1; 1; 1] per (at_ A)) /\
    edge_elements ms = Some (ge, box_count lay [1; 1; 1] per edges3) /\ total [1; 1; 1] edges3 (prodl lay) (concat ge) /\ conforming [1; 1; 1] edges3 (prodl lay) (concat ge) (same_box lay [1; 1; 1] per (at_ A)).
Proof. exact one_region_elements. Qed.
Print Assumptions C61_elements.
(** 3-forms and hybrid forms: every element has its own numbers *)
Theorem C61_hybrid : forall nbasis ms N, map fst (concat ms) = seq 0 N -> 1 <= nbasis ->
  let gm := concat (hybrid_numbering nbasis ms) in
  map fst gm = seq 0 N /\ (forall e v, In (e, v) gm -> length v = nbasis) /\ consecutive gm (N * nbasis) /\
  forall e e' v v' i i' n, In (e, v) gm -> In (e', v') gm -> nth_error v i = Some n -> nth_error v' i' = Some n -> e = e' /\ i = i'.
Proof. exact hybrid_ok. Qed.
Print Assumptions C61_hybrid.
(** (2, 1, 1) elements, not periodic and periodic along the first axis, on two cores *)
Definition one_corner (r k : nat) : nat := k.
Definition one_bs : list (nat * (nat * nat)) := [(1, (0, 0)); (2, (0, 1)); (3, (0, 2)); (3, (0, 3)); (3, (0, 4)); (3, (0, 5))].
Definition one_maps (lay : list nat) (bps : list (nat * nat)) (rs : list (list nat)) : option (list emap) :=
  match region_map one_corner 1 [1; 2; 3] one_bs, boundary_pairs one_bs bps with
  | Some m, Some pairs => all_some (map (core_map (fun r => option_map fst (region_numbering (fun _ _ => 0) [lay] (fun _ => OrderF) r)) [lay] (fun r i => name_of (m r i)) [1; 2; 3] pairs) rs)
  | _, _ => None
  end.
Definition one_numbers (k : nform) (lay p : list nat) (bps : list (nat * nat)) (rs : list (list nat)) : option (list (list (nat * list nat))) :=
  match one_maps lay bps rs with Some ms => naive k p ms | None => None end.
Example C61_ex :
  one_numbers F0 [2; 1; 1] [1; 1; 1] [] [[0]; [1]] = Some [[(0, [0; 1; 2; 3; 4; 5; 6; 7])]; [(1, [1; 8; 3; 10; 5; 9; 7; 11])]] /\
  one_numbers F0 [2; 1; 1] [1; 1; 1] [(1, 2)] [[0]; [1]] = Some [[(0, [0; 1; 2; 3; 4; 5; 6; 7])]; [(1, [1; 0; 3; 2; 5; 4; 7; 6])]] /\
  one_numbers F2 [2; 1; 1] [1; 1; 1] [] [[0]; [1]] = Some [[(0, [0; 1; 2; 3; 4; 5])]; [(1, [1; 6; 7; 8; 9; 10])]] /\
  box_count [2; 1; 1] [1; 1; 1] (fun _ => false) faces3 = 11 /\
  option_map (fun gms => map (fun ev => length (snd ev)) (concat gms)) (one_numbers F1 [3; 2; 2] [2; 1; 3] [] [seq 0 5; seq 5 7]) = Some (repeat 46 12).
Proof. vm_compute. repeat split. Qed.

(** C62: the numbering succeeds exactly if every element except 0 is beside an earlier one *)
Theorem C62_success : forall k p ms N, map fst (concat ms) = seq 0 N -> (forall e row, In (e, row) (concat ms) -> length row = 2 * length p) ->
  (naive k p ms <> None <-> follows (nbr_of (concat ms)) N).
Proof. exact naive_success. Qed.
Print Assumptions C62_success.
(** if it succeeds all dofs are numbered, the numbers are consecutive, and equal numbers are given to one and the same dof only *)
Theorem C62_sound : forall k p ms N, map fst (concat ms) = seq 0 N -> (forall e row, In (e, row) (concat ms) -> length row = 2 * length p) ->
  forall gms, naive k p ms = Some gms -> let ts := dof_types k (length p) in
  (total p ts N (concat gms) /\ map (map fst) gms = map (map fst) ms /\ exists K, consecutive (concat gms) K) /\
  forall a b n, cell_of p ts N a -> cell_of p ts N b -> numbered p ts (concat gms) a n -> numbered p ts (concat gms) b n -> identified p ts (nbr_of (concat ms)) N a b.
Proof. exact (fun k p ms N HL HR gms HG => conj (naive_total k p ms N HL HR gms HG) (naive_sound k p ms N HL HR gms HG)). Qed.
Print Assumptions C62_sound.
(** and it is conforming exactly if each dof met before is on a side shared with an earlier element *)
Theorem C62_conforming : forall k p ms N, map fst (concat ms) = seq 0 N -> (forall e row, In (e, row) (concat ms) -> length row = 2 * length p) ->
  forall gms, naive k p ms = Some gms -> let ts := dof_types k (length p) in
  (conforming p ts N (concat gms) (identified p ts (nbr_of (concat ms)) N) <-> met_before p ts (nbr_of (concat ms)) N).
Proof. exact naive_conforming. Qed.
Print Assumptions C62_conforming.
(** regions made of one layer of columns at places (x, y); each side beside no region is given to one boundary *)
Definition col_corner (xy : list (nat * nat)) (r k : nat) : nat := let q := nth r xy (0, 0) in (fst q + k mod 2) + 10 * (snd q + (k / 2) mod 2) + 100 * (k / 4).
Definition col_bs (xy : list (nat * nat)) : list (nat * (nat * nat)) :=
  let n := length xy in filter (fun x => length (attached_regions (col_corner xy) n (fst (snd x)) (snd (snd x))) =? 0) (flat_map (fun r => map (fun i => (n, (r, i))) (seq 0 6)) (seq 0 n)).
Definition col_map (xy : list (nat * nat)) (lays : list (list nat)) : option emap :=
  match region_map (col_corner xy) (length xy) [length xy] (col_bs xy), boundary_pairs (col_bs xy) [] with
  | Some m, Some pairs => core_map (fun r => option_map fst (region_numbering (fun _ _ => 0) lays (fun _ => OrderF) r)) lays (fun r i => name_of (m r i)) [length xy] pairs (seq 0 (sum (map prodl lays)))
  | _, _ => None
  end.
(** two regions of layout (2, 1, 1), the second before the first: a KeyError *)
Theorem C62_raises_refuted : exists m, col_map [(1, 0); (0, 0)] [[2; 1; 1]; [2; 1; 1]] = Some m /\ map fst m = seq 0 4 /\ forall k p, length p = 3 -> naive k p [m] = None.
Proof.
  eexists. split; [vm_compute; reflexivity|]. split; [reflexivity|]. intros k p Hp.
  match goal with |- naive k p [?m] = None => set (M := m) end. destruct (naive k p [M]) as [gms|] eqn:E; [|exact E]. exfalso.
  assert (HR : forall e row, In (e, row) (concat [M]) -> length row = 2 * length p).
  { intros e row H. rewrite Hp. cbn in H. repeat (destruct H as [[= <- <-]|H]; [reflexivity|]). contradiction. }
  destruct (proj1 (naive_success k p [M] 4 eq_refl HR) ltac:(congruence) 2 ltac:(lia)) as (f & ax & up & Hf & row & Hr & En).
  cbn [concat app] in Hr. unfold M in Hr. set (j := 2 * ax + _) in En. clearbody j. destruct Hr as [H|[H|[H|[H|[]]]]]; injection H as <- <-; try lia; do 6 (destruct j as [|j]; [discriminate|]); destruct j; discriminate.
Qed.
Print Assumptions C62_raises_refuted.
(** a ring of eight columns: element 6 at (2, 2) meets element 0 at (1, 1) in an edge, and both are beside 7 at (1, 2); the nodes of that edge are numbered twice *)
Definition ring : list (nat * nat) := [(1, 1); (0, 1); (0, 2); (0, 3); (1, 3); (2, 3); (2, 2); (1, 2)].
Definition ring_map : option emap := col_map ring (repeat [1; 1; 1] 8).
Theorem C62_twice_refuted : exists m gms, ring_map = Some m /\ naive F0 [1; 1; 1] [m] = Some gms /\ ~ conforming [1; 1; 1] (node_types 3) 8 (concat gms) (identified [1; 1; 1] (node_types 3) (nbr_of m) 8).
Proof.
  eexists. eexists. split; [vm_compute; reflexivity|]. split; [vm_compute; reflexivity|]. intros C.
  set (M := nbr_of _) in C. set (gm := concat _) in C.
  assert (IN : forall e x, e < 8 -> In x (cells [1; 1; 1] (node_types 3)) -> cell_of [1; 1; 1] (node_types 3) 8 (e, x)) by (intros; split; assumption).
  specialize (C (0, [(false, 1); (false, 1); (false, 0)]) (6, [(false, 0); (false, 0); (false, 0)])). 
  assert (A0 : cell_of [1; 1; 1] (node_types 3) 8 (0, [(false, 1); (false, 1); (false, 0)])) by (apply IN; [lia|cbn; tauto]).
  assert (A6 : cell_of [1; 1; 1] (node_types 3) 8 (6, [(false, 0); (false, 0); (false, 0)])) by (apply IN; [lia|cbn; tauto]).
  assert (A7 : cell_of [1; 1; 1] (node_types 3) 8 (7, [(false, 1); (false, 0); (false, 0)])) by (apply IN; [lia|cbn; tauto]).
  assert (I : identified [1; 1; 1] (node_types 3) M 8 (0, [(false, 1); (false, 1); (false, 0)]) (6, [(false, 0); (false, 0); (false, 0)])).
  { eapply rst_trans with (y := (7, [(false, 1); (false, 0); (false, 0)])).
    - apply rst_step. split; [exact A0|]. split; [exact A7|]. exists 1, true. split; [eexists; split; [left; reflexivity|reflexivity]|]. split; [reflexivity|]. split; [reflexivity|]. intros [|[|[|[|a]]]] H; try reflexivity; contradiction.
    - apply rst_step. split; [exact A7|]. split; [exact A6|]. exists 0, true. split; [eexists; split; [do 7 right; left; reflexivity|reflexivity]|]. split; [reflexivity|]. split; [reflexivity|]. intros [|[|[|[|a]]]] H; try reflexivity; contradiction. }
  assert (N0 : exists n, numbered [1; 1; 1] (node_types 3) gm (0, [(false, 1); (false, 1); (false, 0)]) n /\ n < 8) by (exists 3; split; [eexists; exists 3; split; [left; reflexivity|split; reflexivity]|lia]).
  assert (N6 : exists n, numbered [1; 1; 1] (node_types 3) gm (6, [(false, 0); (false, 0); (false, 0)]) n /\ 8 <= n).
  { eexists. split; [eexists; exists 0; split; [do 6 right; left; reflexivity|split; reflexivity]|]. lia. }
  destruct N0 as (n & N0 & L0), N6 as (n6 & N6 & L6). assert (n = n6) by (apply (C n n6 A0 A6 N0 N6); exact I). lia.
Qed.
Print Assumptions C62_twice_refuted.
