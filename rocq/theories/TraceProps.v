(** Property theorems: the trace elements of a mesh, their types, and hybrid trace form numbering. *)
From Coq Require Import List Arith Lia.
From Verif Require Import Prelude SpaceModel MeshModel MeshSpec MeshProofs MeshMapModel MeshMapSpec TraceModel TraceSpec TraceProofs2 TraceProofs3.
Import ListNotations.

(** C59: for every symmetric element map cut over cores, no assertion fails, and on every core each side has a trace element, each
    trace element a right record; two sides have the same trace element iff they are the same or joined; the numbers are 0..G-1 *)
Theorem C59_trace : forall N ms, map fst (concat ms) = seq 0 N -> (forall e row, In (e, row) (concat ms) -> length row = 6) ->
  (forall e j f, entry (concat ms) e j (El f) -> entry (concat ms) f (facing j) (El e)) ->
  forall ups, Forall2 selfp ms ups ->
  exists outs G, trace_elements (combine ms ups) = Some (outs, G) /\ Forall2 good_core (combine ms ups) outs /\
    (let T := concat (map snd outs) in
     (forall e j f i t u, entry T e j t -> entry T f i u -> t = u <-> (e = f /\ j = i) \/ (entry (concat ms) e j (El f) /\ i = facing j)) /\
     (forall t, t < G <-> exists e j, entry T e j t)).
Proof. exact traces_ok. Qed.
Print Assumptions C59_trace.
(** cutting the same map differently gives the same numbers *)
Theorem C59_cores : forall N ms ms' ups ups' outs outs' G G', map fst (concat ms) = seq 0 N -> (forall e row, In (e, row) (concat ms) -> length row = 6) ->
  (forall e j f, entry (concat ms) e j (El f) -> entry (concat ms) f (facing j) (El e)) -> concat ms' = concat ms -> Forall2 selfp ms ups -> Forall2 selfp ms' ups' ->
  trace_elements (combine ms ups) = Some (outs, G) -> trace_elements (combine ms' ups') = Some (outs', G') -> concat (map snd outs) = concat (map snd outs') /\ G = G'.
Proof. exact traces_indep. Qed.
Print Assumptions C59_cores.
(** the same from the regions, the boundaries and the layouts on (the setting of C58) *)
Theorem C59_mesh : forall corner bnames bsides m g lays sc bps pairs,
  (forall b, In b bnames -> length lays <= b) -> (forall x, In x bsides -> In (fst x) bnames /\ snd (snd x) < 6) -> region_map corner (length lays) bnames bsides = Some m ->
  Forall (fun lay => length lay = 3 /\ Forall (fun n => 1 <= n) lay) lays -> (forall r lay, nth_error lays r = Some lay -> lens_ok (prodl lay) (sc r)) ->
  boundary_pairs bsides bps = Some pairs ->
  let num r := option_map fst (region_numbering g lays sc r) in let rm r i := name_of (m r i) in
  forall ps, concat_some (map (side_pairs num (length lays)) pairs) = Some ps ->
  forall SIZE rs ms, partition SIZE (sum (map prodl lays)) rs -> Forall2 (fun els mm => core_map num lays rm bnames pairs els = Some mm) rs ms ->
  exists outs G, trace_elements (map (fun mm => (mm, useful_pairs mm ps)) ms) = Some (outs, G) /\ Forall2 good_core (map (fun mm => (mm, useful_pairs mm ps)) ms) outs /\
    (let T := concat (map snd outs) in
     (forall e j f i t u, entry T e j t -> entry T f i u -> t = u <-> (e = f /\ j = i) \/ (entry (concat ms) e j (El f) /\ i = facing j)) /\
     (forall t, t < G <-> exists e j, entry T e j t)).
Proof. exact mesh_traces. Qed.
Print Assumptions C59_mesh.
(** a ring of two elements over two cores, periodic to each other along the first axis and each periodic to itself along the second *)
Definition ring : list emap := [[(0, [El 1; El 1; El 0; El 0; Bd 7; Bd 8])]; [(1, [El 0; El 0; El 1; El 1; Bd 7; Bd 8])]].
Definition ring_ups : list (list epair) :=
  [[(0, (0, false), (0, true), 1); (0, (1, false), (1, true), 0)]; [(0, (0, false), (0, true), 1); (1, (1, true), (1, false), 1)]].
Example C59_ex : option_map (fun x => (map snd (fst x), snd x)) (trace_elements (combine ring ring_ups)) = Some ([[(0, [0; 1; 2; 2; 3; 4])]; [(1, [1; 0; 5; 5; 6; 7])]], 8) /\ Forall2 selfp ring ring_ups.
Proof.
  split; [vm_compute; reflexivity|].
  assert (X : forall e row ups, (forall j, j < 6 -> nth_error row j = Some (El e) -> In (e, side_of j, side_of (facing j), e) ups \/ In (e, side_of (facing j), side_of j, e) ups) -> length row = 6 -> selfp [(e, row)] ups).
  { intros e row ups H L f j (r & [[= -> ->]|[]] & Hn). apply H; [rewrite <- L; apply nth_error_Some; congruence|exact Hn]. }
  constructor; [|constructor; [|constructor]]; apply X; try reflexivity; intros j Hj Hn; destruct j as [|[|[|[|[|[|j]]]]]]; try discriminate Hn; try lia; vm_compute; auto 10.
Qed.

(** C60: the table of types: for every trace element of the core the numbers of trace elements of each axis with smaller number, all
    cores taken together ([axis] is the axis of the sides having that trace element). [slave]: slave_of_element, right by C79 *)
Theorem C60_types : forall N ms, map fst (concat ms) = seq 0 N -> (forall e row, In (e, row) (concat ms) -> length row = 6) ->
  (forall e j f, entry (concat ms) e j (El f) -> entry (concat ms) f (facing j) (El e)) ->
  forall ups, Forall2 selfp ms ups ->
  forall slave outs G, (forall c mm e, nth_error ms c = Some mm -> In e (map fst mm) -> slave e = Some c) -> trace_elements (combine ms ups) = Some (outs, G) ->
  exists axis tas, type_amounts slave G (combine ms (map fst outs)) = Some tas /\
    (forall e j t, entry (concat (map snd outs)) e j t -> axis t = j / 2) /\
    Forall2 (fun o ta => NoDup (map fst ta) /\ forall t c, In (t, c) ta <-> In t (map fst (fst o)) /\ c = (faces_before axis 0 t, faces_before axis 1 t, faces_before axis 2 t)) outs tas.
Proof. exact types_ok. Qed.
Print Assumptions C60_types.
(** so the hybrid numbering of trace forms: nbo ax dofs on each side of axis ax; two dofs are the same iff they are the same dof of the
    same trace element; the numbers are 0..total-1 *)
Theorem C60_trace_dofs : forall N ms, map fst (concat ms) = seq 0 N -> (forall e row, In (e, row) (concat ms) -> length row = 6) ->
  (forall e j f, entry (concat ms) e j (El f) -> entry (concat ms) f (facing j) (El e)) ->
  forall ups, Forall2 selfp ms ups ->
  forall slave outs G nbo, (forall c mm e, nth_error ms c = Some mm -> In e (map fst mm) -> slave e = Some c) -> trace_elements (combine ms ups) = Some (outs, G) ->
  exists tas gms, type_amounts slave G (combine ms (map fst outs)) = Some tas /\
    Forall2 (fun ot gm => exists tew, gm_tew nbo (fst (fst ot)) (snd ot) = Some tew /\ gm_trace tew (snd (fst ot)) = Some gm) (combine outs tas) gms /\
    map (map fst) gms = map (map fst) ms /\ (forall e v, In (e, v) (concat gms) -> length v = sum (map (fun k => nbo (k / 2)) (seq 0 6))) /\
    (forall e j i d f k l d', side_dof nbo (concat gms) e j i d -> side_dof nbo (concat gms) f k l d' -> d = d' <-> i = l /\ exists t, entry (concat (map snd outs)) e j t /\ entry (concat (map snd outs)) f k t) /\
    (exists total, forall d, d < total <-> exists e j i, side_dof nbo (concat gms) e j i d).
Proof. exact dofs_ok. Qed.
Print Assumptions C60_trace_dofs.
(** from the regions and layouts on, with the slave_of_element of the mesh: two dofs are the same iff they are the same dof of the same
    side or of two sides joined *)
Theorem C60_mesh_dofs : forall corner bnames bsides m g lays sc bps pairs,
  (forall b, In b bnames -> length lays <= b) -> (forall x, In x bsides -> In (fst x) bnames /\ snd (snd x) < 6) -> region_map corner (length lays) bnames bsides = Some m ->
  Forall (fun lay => length lay = 3 /\ Forall (fun n => 1 <= n) lay) lays -> (forall r lay, nth_error lays r = Some lay -> lens_ok (prodl lay) (sc r)) ->
  boundary_pairs bsides bps = Some pairs ->
  let num r := option_map fst (region_numbering g lays sc r) in let rm r i := name_of (m r i) in
  forall ps, concat_some (map (side_pairs num (length lays)) pairs) = Some ps ->
  forall d ms nbo, partition (length d) (sum (map prodl lays)) (element_ranges 0 d) -> Forall2 (fun els mm => core_map num lays rm bnames pairs els = Some mm) (element_ranges 0 d) ms ->
  exists outs G tas gms, trace_elements (map (fun mm => (mm, useful_pairs mm ps)) ms) = Some (outs, G) /\ type_amounts (slave_of d (length d)) G (combine ms (map fst outs)) = Some tas /\
    Forall2 (fun ot gm => exists tew, gm_tew nbo (fst (fst ot)) (snd ot) = Some tew /\ gm_trace tew (snd (fst ot)) = Some gm) (combine outs tas) gms /\
    map (map fst) gms = element_ranges 0 d /\
    (forall e j i x f k l y, side_dof nbo (concat gms) e j i x -> side_dof nbo (concat gms) f k l y -> x = y <-> i = l /\ ((e = f /\ j = k) \/ (entry (concat ms) e j (El f) /\ k = facing j))) /\
    (exists total, forall x, x < total <-> exists e j i, side_dof nbo (concat gms) e j i x).
Proof. exact mesh_dofs. Qed.
Print Assumptions C60_mesh_dofs.
Example C60_ex : match trace_elements (combine ring ring_ups) with
  | Some (outs, G) => option_map (fun tas => (tas, map (fun ot => match gm_tew (fun ax => ax + 1) (fst (fst ot)) (snd ot) with Some tew => gm_trace tew (snd (fst ot)) | None => None end) (combine outs tas)))
                        (type_amounts (fun e => Some e) G (combine ring (map fst outs)))
  | None => None
  end = Some ([[(0, (0, 0, 0)); (1, (1, 0, 0)); (2, (2, 0, 0)); (3, (2, 1, 0)); (4, (2, 1, 1))]; [(0, (0, 0, 0)); (1, (1, 0, 0)); (5, (2, 1, 2)); (6, (2, 2, 2)); (7, (2, 2, 3))]],
    [Some [(0, [0; 1; 2; 3; 2; 3; 4; 5; 6; 7; 8; 9])]; Some [(1, [1; 0; 10; 11; 10; 11; 12; 13; 14; 15; 16; 17])]]).
Proof. vm_compute. reflexivity. Qed.
