(** Properties of the 3D mesh: distribution, numbering, region map, element map, element sizes. *)
From Coq Require Import List Arith Bool Lia QArith Qcanon.
From Verif Require Import Prelude SpaceModel MeshModel MeshSpec MeshMapSpec MeshProofs MeshProofs2 MeshProofs3 MeshMapModel MeshMapProofs MeshMapProofs2 MeshMapProofs3 MeshMapProofs4 SpacingModel SpacingSpec SpacingProofs.
Import ListNotations.
Local Open Scope nat_scope.

(** C56: the cores own consecutive disjoint ranges covering all elements. [mlf n], [slf n] stand for int(0.75 n), int(0.9 n). *)
Theorem C56_partition : forall mlf slf : nat -> nat, (forall n, mlf n <= n) -> (forall n, slf n <= n) ->
  forall m equal rnd SIZE cnt d, 1 <= SIZE -> 1 <= length cnt -> distribution mlf slf m equal rnd SIZE cnt = Some d ->
  partition SIZE (sum cnt) (element_ranges 0 d).
Proof. exact distribution_ok. Qed.
Print Assumptions C56_partition.
Theorem C56_automatic : forall mlf slf a equal rnd SIZE cnt m, 1 <= SIZE -> 1 <= length cnt -> (length cnt = 1 -> equal = true) -> (a = ArgNone \/ a = ArgDebug) ->
  decide_EDM a equal SIZE (length cnt) = Some m -> exists d, distribution mlf slf m equal rnd SIZE cnt = Some d.
Proof. exact auto_total. Qed.
Print Assumptions C56_automatic.
Example C56_ex : let mlf n := 3 * n / 4 in let slf n := 9 * n / 10 in
  distribution mlf slf SWV0 true (fun _ => 0) 5 [40; 37] = Some [9; 13; 18; 18; 19] /\
  distribution mlf slf Default true (fun _ => 0) 5 [40; 37] = Some [11; 14; 18; 17; 17] /\
  distribution mlf slf FewCores true (fun _ => 0) 2 [4; 5; 6] = Some [4; 11] /\
  decide_EDM ArgNone true 5 2 = Some SWV0.
Proof. vm_compute. repeat split. Qed.

(** C57: every numbering of a region is one to one onto its consecutive range and increasing along every axis *)
Theorem C57_numbering : forall g lays sc r lay, nth_error lays r = Some lay -> length lay = 3 -> Forall (fun n => 1 <= n) lay -> lens_ok (prodl lay) (sc r) ->
  exists a para, region_numbering g lays sc r = Some (a, para) /\ shp a = lay /\
    bijective lay (sum (map prodl (firstn r lays))) (prodl lay) (at_ a) /\ increasing lay (at_ a).
Proof. exact region_numbering_ok. Qed.
Print Assumptions C57_numbering.
Example C57_ex : let sc (_ : nat) := Blocks [8; 8; 7; 7; 6; 6; 6] false (2, 2) in
  lens_ok (prodl [3; 4; 4]) (sc 1) /\
  option_map (fun ap => map (at_ (fst ap)) [[0; 0; 0]; [1; 0; 0]; [2; 0; 0]; [0; 1; 0]; [0; 0; 1]; [2; 3; 3]]) (region_numbering (fun _ _ => 0) [[1; 1; 2]; [3; 4; 4]] sc 1)
  = Some [2; 3; 4; 5; 8; 49].
Proof. vm_compute. repeat split; discriminate. Qed.

(** C80: the region map: every region side is beside one boundary or the one other region having a side with the same corners, mutually *)
Theorem C80_mutual : forall corner nrs bnames bsides, (forall b, In b bnames -> nrs <= b) -> (forall x, In x bsides -> In (fst x) bnames /\ snd (snd x) < 6) ->
  forall m, region_map corner nrs bnames bsides = Some m -> forall r i, r < nrs -> i < 6 ->
  exists n, m r i = Name n /\
    ((In n bnames /\ In (n, (r, i)) bsides) \/
     (~ In n bnames /\ m n (facing i) = Name r /\ forall n', sharing corner nrs r i n' <-> n' = n)).
Proof. exact side_beside. Qed.
Print Assumptions C80_mutual.
Theorem C80_boundary : forall corner nrs bnames bsides, (forall b, In b bnames -> nrs <= b) -> (forall x, In x bsides -> In (fst x) bnames /\ snd (snd x) < 6) ->
  forall m, region_map corner nrs bnames bsides = Some m -> (forall b r i, In (b, (r, i)) bsides -> r < nrs /\ m r i = Name b) /\ NoDup (map snd bsides).
Proof. exact (fun corner nrs bnames bsides HB HS m E => conj (fun b r i H => match map_boundary corner nrs bnames bsides HB HS m E b r i H with conj A (conj B _) => conj A B end) (bsides_NoDup corner nrs bnames bsides HB HS m E)). Qed.
Print Assumptions C80_boundary.
(** without cracks (sides coinciding with another region's but given to a boundary), attached sides have the same corners *)
Theorem C80_corners : forall corner nrs bnames bsides, (forall b, In b bnames -> nrs <= b) -> (forall x, In x bsides -> In (fst x) bnames /\ snd (snd x) < 6) ->
  forall m, region_map corner nrs bnames bsides = Some m -> forall r i n, r < nrs -> i < 6 -> m r i = Name n -> ~ In n bnames ->
  (forall jj n', jj < 6 -> sharing corner nrs r jj n' -> at_side bsides r jj = []) ->
  side_points corner r i = side_points corner n (facing i).
Proof. exact facing_corners. Qed.
Print Assumptions C80_corners.
(** with cracks they need not: two regions with the same corners are accepted *)
Theorem C80_crack_refuted : exists corner bsides m, (forall x, In x bsides -> fst x = 2 /\ snd (snd x) < 6) /\ region_map corner 2 [2] bsides = Some m /\
  m 0 0 = Name 1 /\ side_points corner 0 0 <> side_points corner 1 1.
Proof.
  exists (fun _ k => k), [(2, (0, 1)); (2, (1, 0)); (2, (0, 2)); (2, (0, 3)); (2, (0, 4)); (2, (0, 5)); (2, (1, 2)); (2, (1, 3)); (2, (1, 4)); (2, (1, 5))].
  eexists. split; [intros x H; repeat (destruct H as [<-|H]; [cbn; lia|]); contradiction|]. split; [vm_compute; reflexivity|]. split; [vm_compute; reflexivity|vm_compute; discriminate].
Qed.
Print Assumptions C80_crack_refuted.
(** two regions one above the other *)
Definition stack (r k : nat) : nat := nth k (nth r [[0; 1; 2; 3; 4; 5; 6; 7]; [1; 8; 3; 9; 5; 10; 7; 11]] []) 0.
Definition stack_bs : list (nat * (nat * nat)) := [(2, (0, 0)); (3, (1, 1)); (4, (0, 2)); (4, (0, 3)); (4, (0, 4)); (4, (0, 5)); (4, (1, 2)); (4, (1, 3)); (4, (1, 4)); (4, (1, 5))].
Example C80_ex : option_map (fun m => (map (m 0) (seq 0 6), map (m 1) (seq 0 6))) (region_map stack 2 [2; 3; 4] stack_bs) =
  Some (map Name [2; 1; 4; 4; 4; 4], map Name [0; 3; 4; 4; 4; 4]).
Proof. vm_compute. reflexivity. Qed.

(** C58: the element maps of the cores: every element once, six entries each, and neighbours are mutual, periodic or not *)
Theorem C58_symmetric : forall corner bnames bsides m g lays sc bps pairs,
  (forall b, In b bnames -> length lays <= b) -> (forall x, In x bsides -> In (fst x) bnames /\ snd (snd x) < 6) -> region_map corner (length lays) bnames bsides = Some m ->
  Forall (fun lay => length lay = 3 /\ Forall (fun n => 1 <= n) lay) lays -> (forall r lay, nth_error lays r = Some lay -> lens_ok (prodl lay) (sc r)) ->
  boundary_pairs bsides bps = Some pairs ->
  let num r := option_map fst (region_numbering g lays sc r) in let rm r i := name_of (m r i) in
  forall SIZE rs ms, partition SIZE (sum (map prodl lays)) rs -> Forall2 (fun els mm => core_map num lays rm bnames pairs els = Some mm) rs ms ->
  map fst (concat ms) = seq 0 (sum (map prodl lays)) /\
  forall e row, In (e, row) (concat ms) -> length row = 6 /\
    forall ax (up : bool) f, ax < 3 -> nth_error row (2 * ax + (if up then 1 else 0)) = Some (El f) ->
    exists row', In (f, row') (concat ms) /\ nth_error row' (2 * ax + (if negb up then 1 else 0)) = Some (El e).
Proof. exact mesh_symmetric. Qed.
Print Assumptions C58_symmetric.
(** the neighbour is the element next to it inside the region, or at the same place of the facing side of the region attached or
    joined by a periodic pair; a boundary entry is the boundary of that region side, which is then not periodic *)
Theorem C58_where : forall corner bnames bsides m g lays sc bps pairs,
  (forall b, In b bnames -> length lays <= b) -> (forall x, In x bsides -> In (fst x) bnames /\ snd (snd x) < 6) -> region_map corner (length lays) bnames bsides = Some m ->
  Forall (fun lay => length lay = 3 /\ Forall (fun n => 1 <= n) lay) lays -> (forall r lay, nth_error lays r = Some lay -> lens_ok (prodl lay) (sc r)) ->
  boundary_pairs bsides bps = Some pairs ->
  let num r := option_map fst (region_numbering g lays sc r) in let rm r i := name_of (m r i) in
  forall SIZE rs ms, partition SIZE (sum (map prodl lays)) rs -> Forall2 (fun els mm => core_map num lays rm bnames pairs els = Some mm) rs ms ->
  (forall r1 s1 r2 s2, In ((r1, s1), (r2, s2)) pairs -> forall a, a <> fst s1 -> nth a (nth r1 lays []) 0 = nth a (nth r2 lays []) 0) ->
  forall e row ax (up : bool), In (e, row) (concat ms) -> ax < 3 -> exists r idx, located num lays e r idx /\
    exists v, nth_error row (2 * ax + (if up then 1 else 0)) = Some v /\
    match v with
    | El f => exists r' idx', located num lays f r' idx' /\ next_to lays (att_periodic rm bnames pairs) r idx ax up r' idx'
    | Bd b => extreme up (nth ax (nth r lays []) 0) (nth ax idx 0) /\ rm r (2 * ax + (if up then 1 else 0)) = Some b /\ In b bnames /\
             forall p, In p pairs -> ~ In (r, 2 * ax + (if up then 1 else 0)) (psides p)
    end.
Proof. exact mesh_where. Qed.
Print Assumptions C58_where.
(** if all maps could be made, attached regions have the same number of elements along the two other axes *)
Theorem C58_layouts : forall corner bnames bsides m g lays sc pairs,
  (forall b, In b bnames -> length lays <= b) -> (forall x, In x bsides -> In (fst x) bnames /\ snd (snd x) < 6) -> region_map corner (length lays) bnames bsides = Some m ->
  Forall (fun lay => length lay = 3 /\ Forall (fun n => 1 <= n) lay) lays -> (forall r lay, nth_error lays r = Some lay -> lens_ok (prodl lay) (sc r)) ->
  let num r := option_map fst (region_numbering g lays sc r) in let rm r i := name_of (m r i) in
  forall SIZE rs ms, partition SIZE (sum (map prodl lays)) rs -> Forall2 (fun els mm => core_map num lays rm bnames pairs els = Some mm) rs ms ->
  forall r i n, r < length lays -> i < 6 -> rm r i = Some n -> ~ In n bnames -> forall a, a <> i / 2 -> nth a (nth r lays []) 0 = nth a (nth n lays []) 0.
Proof. exact mesh_layouts. Qed.
Print Assumptions C58_layouts.
(** the layouts of periodic region sides are not checked: two separate regions of layouts (1,2,3), (1,3,2) joined N = S are accepted, and
    element 2 at (0,0,1) of the first gets element 8 at (0,2,0) of the second; for (1,1,1), (1,2,2) only one of the four elements is joined *)
Definition apart (r k : nat) : nat := 8 * r + k.
Definition apart_bs : list (nat * (nat * nat)) := [(2, (0, 0)); (3, (1, 1)); (4, (0, 1)); (4, (0, 2)); (4, (0, 3)); (4, (0, 4)); (4, (0, 5)); (4, (1, 0)); (4, (1, 2)); (4, (1, 3)); (4, (1, 4)); (4, (1, 5))].
Definition apart_map (lays : list (list nat)) : option (list (list beside)) :=
  match region_map apart 2 [2; 3; 4] apart_bs, boundary_pairs apart_bs [(2, 3)] with
  | Some m, Some pairs =>
      option_map (map snd) (core_map (fun r => option_map fst (region_numbering (fun _ _ => 0) lays (fun _ => OrderF) r)) lays (fun r i => name_of (m r i)) [2; 3; 4] pairs (seq 0 (sum (map prodl lays))))
  | _, _ => None
  end.
Theorem C58_periodic_layout_refuted :
  option_map (fun t => nth_error (nth 2 t []) 0) (apart_map [[1; 2; 3]; [1; 3; 2]]) = Some (Some (El 8)) /\
  find_element (fun r => option_map fst (region_numbering (fun _ _ => 0) [[1; 2; 3]; [1; 3; 2]] (fun _ => OrderF) r)) [[1; 2; 3]; [1; 3; 2]] 2 = Some (0, [0; 0; 1]) /\
  find_element (fun r => option_map fst (region_numbering (fun _ _ => 0) [[1; 2; 3]; [1; 3; 2]] (fun _ => OrderF) r)) [[1; 2; 3]; [1; 3; 2]] 8 = Some (1, [0; 2; 0]) /\
  option_map (map (fun row => nth_error row 1)) (apart_map [[1; 1; 1]; [1; 2; 2]]) = Some (map Some [Bd 4; El 0; Bd 3; Bd 3; Bd 3]).
Proof. vm_compute. repeat split. Qed.
Print Assumptions C58_periodic_layout_refuted.
(** the stack of two regions, periodic from top to bottom, on two cores *)
Definition stack_maps : option (list emap) :=
  match region_map stack 2 [2; 3; 4] stack_bs, boundary_pairs stack_bs [(2, 3)] with
  | Some m, Some pairs =>
      let lays := [[1; 2; 1]; [2; 2; 1]] in
      all_some (map (core_map (fun r => option_map fst (region_numbering (fun _ _ => 0) lays (fun _ => OrderF) r)) lays (fun r i => name_of (m r i)) [2; 3; 4] pairs) [seq 0 2; seq 2 4])
  | _, _ => None
  end.
Example C58_ex : option_map (fun ms => map snd (concat ms)) stack_maps = Some
  [[El 3; El 2; Bd 4; El 1; Bd 4; Bd 4]; [El 5; El 4; El 0; Bd 4; Bd 4; Bd 4];
   [El 0; El 3; Bd 4; El 4; Bd 4; Bd 4]; [El 2; El 0; Bd 4; El 5; Bd 4; Bd 4]; [El 1; El 5; El 2; Bd 4; Bd 4; Bd 4]; [El 4; El 1; El 3; Bd 4; Bd 4; Bd 4]].
Proof. vm_compute. reflexivity. Qed.

(** C79: slave_of_element finds the core owning the element, and only that *)
Theorem C79_slave : forall d SIZE i c, length d = SIZE -> slave_of d SIZE i = Some c <-> exists l, nth_error (element_ranges 0 d) c = Some l /\ In i l.
Proof. exact slave_ok. Qed.
Print Assumptions C79_slave.
Example C79_ex : map (slave_of [2; 1; 3; 1; 1; 1; 2; 4; 1; 1; 1; 3] 12) [0; 4; 10; 14; 18; 20; 21] = [Some 0; Some 2; Some 6; Some 7; Some 11; Some 11; None] /\ slave_of [2; 0; 3; 0; 0; 0; 2; 4; 0; 1; 1; 3] 12 6 = Some 6.
Proof. vm_compute. repeat split. Qed.

(** C81: the optimised SWV0 distribution is again a partition, keeps the regions of every core and leaves no core empty that was not *)
Theorem C81_optimized : forall mlf slf : nat -> nat, (forall n, mlf n <= n) -> (forall n, slf n <= n) -> (forall n, 2 < n -> 1 <= mlf n) -> (forall n, 2 < n -> 1 <= slf n) ->
  forall SIZE lays d fars xys g, 1 <= length lays -> Forall (fun lay => length lay = 3 /\ Forall (fun n => 1 <= n) lay) lays ->
  dis_swv0 mlf slf true SIZE (map prodl lays) = Some d ->
  let rc := region_cores SIZE (length lays) in
  let sc r := Blocks (map (at_core d) (nth r rc [])) (fars r) (xys r) in
  exists d', optimize mlf slf SIZE rc (fun r => match region_numbering g lays sc r with Some (_, p) => p | None => None end) d = Some d' /\
    (forall r, r < length lays -> exists a p, region_numbering g lays sc r = Some (a, p)) /\
    partition SIZE (sum (map prodl lays)) (element_ranges 0 d') /\
    (forall c, c < SIZE -> (1 <= at_core d c <-> 1 <= at_core d' c)) /\
    (forall c r, visits (element_ranges 0 d) (map prodl lays) c r <-> visits (element_ranges 0 d') (map prodl lays) c r) /\
    (forall c r1 r2, visits (element_ranges 0 d') (map prodl lays) c r1 -> visits (element_ranges 0 d') (map prodl lays) c r2 -> r1 = r2).
Proof. exact swv0_optimized. Qed.
Print Assumptions C81_optimized.
Definition opt_ex (SIZE : nat) (lays : list (list nat)) : option (list nat * option (list nat)) :=
  let mlf n := 3 * n / 4 in let slf n := 9 * n / 10 in
  match dis_swv0 mlf slf true SIZE (map prodl lays) with
  | Some d => let rc := region_cores SIZE (length lays) in
      let sc r := Blocks (map (at_core d) (nth r rc [])) false (2, 2) in
      Some (d, optimize mlf slf SIZE rc (fun r => match region_numbering (fun _ _ => 0) lays sc r with Some (_, p) => p | None => None end) d)
  | None => None
  end.
Example C81_ex : opt_ex 5 [[5; 5; 5]] = Some ([18; 24; 28; 28; 27], Some [8; 12; 30; 30; 45]).
Proof. vm_compute. reflexivity. Qed.

(** C82: the boxes of the elements tile the reference cube of a region: each point is in exactly one *)
Theorem C82_tiled : forall axes lay rs ss, parse_layout axes = Some (lay, rs, ss) -> forall pt, length pt = length axes ->
  Forall (fun x => (Q2Qc 0 <= x)%Qc /\ (x < Q2Qc 1)%Qc) pt ->
  exists idx, Forall2 lt idx lay /\ Forall2 box_has (origin_size rs ss idx) pt /\
  forall idx', Forall2 lt idx' lay -> Forall2 box_has (origin_size rs ss idx') pt -> idx' = idx.
Proof. exact cube_tiled. Qed.
Print Assumptions C82_tiled.
Theorem C82_spacing : forall a r, axis_ratio a = Some r -> r <> [] /\ Forall (fun x => (Q2Qc 0 < x)%Qc) r /\ length (axis_spacing r) = length r + 1 /\
  nth 0 (axis_spacing r) (Q2Qc 0) = Q2Qc 0 /\ nth (length r) (axis_spacing r) (Q2Qc 0) = Q2Qc 1 /\
  forall j, j < length r -> nth (S j) (axis_spacing r) (Q2Qc 0) = (nth j (axis_spacing r) (Q2Qc 0) + nth j r (Q2Qc 0))%Qc.
Proof. exact axis_spacing_ok. Qed.
Print Assumptions C82_spacing.
Example C82_ex : option_map (fun r => map this (axis_spacing r)) (axis_ratio (Sizes [Q2Qc 1; Q2Qc 2; Q2Qc 1])) = Some [0; 1 # 4; 3 # 4; 1]%Q /\
  option_map (fun t => map (fun os => (this (fst os), this (snd os))) (origin_size (snd (fst t)) (snd t) [1; 2; 0])) (parse_layout [Sizes [Q2Qc 1; Q2Qc 3]; Num 3; Num 1]) = Some [(1 # 4, 3 # 4); (2 # 3, 1 # 3); (0, 1)]%Q.
Proof. vm_compute. split; reflexivity. Qed.
