(** Properties of the numbering of non-hybrid trace forms. *)
From Coq Require Import List Arith ZArith Bool Relations.
From Verif Require Import Prelude RingSum SpaceModel SpaceSpec MeshModel MeshSpec MeshProofs MeshMapModel MeshMapSpec TraceModel TraceSpec NumModel NumSpec NumProps NhtModel NhtSpec NhtProofs5 NhtProofs6.
Import ListNotations.

(** C63: for any total, consecutive numbering of a standard form (dofs met first in an element get numbers above all earlier ones, inner
    dofs are not shared) over any cores, and any trace elements whose sides have the same dofs in order, the assertions hold, two dofs of
    the trace form have the same number exactly if the dofs of the standard form have, the numbers are 0 .. n - 1, n being the number of
    dofs of the standard form without the inner ones, and the vectors of trace elements agree with those of elements *)
Theorem C63_restriction : forall px py pz k, let p := [px; py; pz] in Forall (fun n => 1 <= n) p -> (k = F2 -> p <> [1; 1; 1]) ->
  let ts := dof_types k 3 in
  forall N K gms tms, 0 < N -> total p ts N (concat gms) -> consecutive (concat gms) K -> prefixed (concat gms) ->
  (forall e v, In (e, v) (concat gms) -> NoDup v) ->
  (forall a b n, numbered p ts (concat gms) a n -> numbered p ts (concat gms) b n -> on_surface p (snd a) = false -> a = b) ->
  Forall2 (fun gm tm => map fst tm = map fst gm /\ forall e row, In (e, row) tm -> length row = 6) gms tms -> joined p ts (concat gms) (concat tms) ->
  exists L outs n, lg_of k p = Some L /\ nonhybrid k p gms tms = Some outs /\
    map (fun o => map fst (fst (fst o))) outs = map (map fst) gms /\
    restriction p ts N L (concat gms) (concat (map (fun o => fst (fst o)) outs)) n /\
    K = n + N * length (filter (fun c => negb (on_surface p c)) (cells p ts)) /\
    Forall2 (fun tm o => on_traces p ts L (fst (fst o)) tm (snd (fst o)) /\ dofs_here p ts L (fst (fst o)) (snd o)) tms outs.
Proof. exact nonhybrid_ok. Qed.
Print Assumptions C63_restriction.
(** with the naive numbering and the trace elements of a mesh, when the former is conforming (C62) and no element meets itself *)
Theorem C63_mesh : forall k p N ms ups gms outs G, length p = 3 -> Forall (fun n => 1 <= n) p -> (k = F2 -> p <> [1; 1; 1]) -> 0 < N ->
  map fst (concat ms) = seq 0 N -> (forall e row, In (e, row) (concat ms) -> length row = 6) ->
  (forall e j f, entry (concat ms) e j (El f) -> entry (concat ms) f (facing j) (El e)) ->
  naive k p ms = Some gms -> let ts := dof_types k 3 in met_before p ts (nbr_of (concat ms)) N ->
  (forall e x y, cell_of p ts N (e, x) -> cell_of p ts N (e, y) -> identified p ts (nbr_of (concat ms)) N (e, x) (e, y) -> x = y) ->
  Forall2 selfp ms ups -> trace_elements (combine ms ups) = Some (outs, G) ->
  exists L res n K, lg_of k p = Some L /\ nonhybrid k p gms (map snd outs) = Some res /\
    map (fun o => map fst (fst (fst o))) res = map (map fst) ms /\
    restriction p ts N L (concat gms) (concat (map (fun o => fst (fst o)) res)) n /\
    consecutive (concat gms) K /\ K = n + N * length (filter (fun c => negb (on_surface p c)) (cells p ts)) /\
    Forall2 (fun tm o => on_traces p ts L (fst (fst o)) tm (snd (fst o)) /\ dofs_here p ts L (fst (fst o)) (snd o)) (map snd outs) res.
Proof. exact mesh_conforming. Qed.
Print Assumptions C63_mesh.
(** from the region and layout on, in a mesh of one region, periodic or not (the setting of C61) *)
Theorem C63_box : forall corner bnames bsides m g lay sc bps pairs,
  (forall b, In b bnames -> 1 <= b) -> (forall x, In x bsides -> In (fst x) bnames /\ snd (snd x) < 6) -> region_map corner 1 bnames bsides = Some m ->
  length lay = 3 -> Forall (fun n => 1 <= n) lay -> lens_ok (prodl lay) (sc 0) -> boundary_pairs bsides bps = Some pairs ->
  let num r := option_map fst (region_numbering g [lay] sc r) in let rm r i := name_of (m r i) in
  forall ps, concat_some (map (side_pairs num 1) pairs) = Some ps ->
  forall SIZE rs ms, partition SIZE (prodl lay) rs -> Forall2 (fun els mm => core_map num [lay] rm bnames pairs els = Some mm) rs ms ->
  forall per : nat -> bool, (forall a, a < 3 -> (per a = true <-> periodic_axis pairs a)) ->
  forall k p, length p = 3 -> Forall (fun n => 1 <= n) p -> (k = F2 -> p <> [1; 1; 1]) -> (forall a, a < 3 -> periodic_axis pairs a -> 2 <= nth a lay 0) ->
  let ts := dof_types k 3 in
  exists A para gms outs G L res n, region_numbering g [lay] sc 0 = Some (A, para) /\ naive k p ms = Some gms /\
    trace_elements (map (fun mm => (mm, useful_pairs mm ps)) ms) = Some (outs, G) /\
    conforming p ts (prodl lay) (concat gms) (same_box lay p per (at_ A)) /\
    lg_of k p = Some L /\ nonhybrid k p gms (map snd outs) = Some res /\
    map (fun o => map fst (fst (fst o))) res = map (map fst) ms /\
    restriction p ts (prodl lay) L (concat gms) (concat (map (fun o => fst (fst o)) res)) n /\
    box_count lay p per ts = n + prodl lay * length (filter (fun c => negb (on_surface p c)) (cells p ts)) /\
    Forall2 (fun tm o => on_traces p ts L (fst (fst o)) tm (snd (fst o)) /\ dofs_here p ts L (fst (fst o)) (snd o)) (map snd outs) res.
Proof. exact box_nonhybrid. Qed.
Print Assumptions C63_box.
(** 2-trace-forms of the lowest degree cannot be numbered, on no mesh: internal_local_dofs raises (C51) *)
Theorem C63_lowest_refuted : forall gms tms, nonhybrid F2 [1; 1; 1] gms tms = None.
Proof. exact nonhybrid_lowest. Qed.
Print Assumptions C63_lowest_refuted.

(** two elements on two cores, periodic along the first axis: 2-forms, whose two inner dofs are left out, and 0-forms *)
Definition one_traces (k : nform) (lay p : list nat) (bps : list (nat * nat)) (rs : list (list nat)) : option (list (list (nat * list Z) * list (nat * list Z) * nat)) :=
  match one_maps lay bps rs, boundary_pairs one_bs bps with
  | Some ms, Some pairs =>
      match concat_some (map (side_pairs (fun r => option_map fst (region_numbering (fun _ _ => 0) [lay] (fun _ => OrderF) r)) 1) pairs), naive k p ms with
      | Some ps, Some gms => match trace_elements (map (fun mm => (mm, useful_pairs mm ps)) ms) with Some (outs, _) => nonhybrid k p gms (map snd outs) | None => None end
      | _, _ => None
      end
  | _, _ => None
  end.
Definition in_nat (o : list (nat * list Z) * list (nat * list Z) * nat) := let f := map (fun x : nat * list Z => (fst x, map Z.to_nat (snd x))) in (f (fst (fst o)), f (snd (fst o)), snd o).
Example C63_ex : option_map (map in_nat) (one_traces F2 [2; 1; 1] [2; 1; 1] [(1, 2)] [[0]; [1]]) =
    Some [([(0, [0; 1; 2; 3; 4; 5; 6; 7; 8; 9])], [(5, [8; 9]); (4, [6; 7]); (3, [4; 5]); (2, [2; 3]); (1, [1]); (0, [0])], 10);
          ([(1, [1; 0; 10; 11; 12; 13; 14; 15; 16; 17])], [(9, [16; 17]); (8, [14; 15]); (7, [12; 13]); (6, [10; 11]); (0, [0]); (1, [1])], 10)] /\
  option_map (map in_nat) (one_traces F0 [2; 1; 1] [1; 1; 1] [(1, 2)] [[0]; [1]]) =
    Some [([(0, [0; 2; 4; 6; 1; 3; 5; 7])], [(5, [4; 5; 6; 7]); (4, [0; 1; 2; 3]); (3, [2; 3; 6; 7]); (2, [0; 1; 4; 5]); (1, [1; 3; 5; 7]); (0, [0; 2; 4; 6])], 8);
          ([(1, [1; 3; 5; 7; 0; 2; 4; 6])], [(9, [5; 4; 7; 6]); (8, [1; 0; 3; 2]); (7, [3; 2; 7; 6]); (6, [1; 0; 5; 4]); (0, [0; 2; 4; 6]); (1, [1; 3; 5; 7])], 8)].
Proof. vm_compute. split; reflexivity. Qed.
