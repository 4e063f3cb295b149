(** Properties of strong boundary conditions. *)
From Coq Require Import List Arith ZArith Bool Lia.
From Verif Require Import Prelude RingSum SpaceModel SpaceSpec MeshModel MeshSpec MeshProofs MeshMapModel NumModel NumSpec NumProps NhtModel AssembleModel GatherModel GatherSpec EwcModel AsmModel AsmSpec StrongModel StrongSpec
  StrongProofs3 StrongProofs4 StrongProofs6 StrongProofs7 StrongProofs8 StrongExample.
Import ListNotations.

(** C66: boundaries can be set exactly if they are boundaries of the mesh (and no element is beside a boundary unknown to the domain); every core has the sides of its elements beside them *)
Theorem C66_requests : forall tuple bnames ms q, (forall l x, In x (tuple l) <-> In x l) -> (forall e row, In (e, row) (concat ms) -> length row = 6) ->
  ((exists iEPs, involved_parts tuple bnames ms q = Some iEPs) <->
   (forall b r e s, beside_boundary ms (eq b) r e s -> In b bnames) /\ match q with All => True | Those l => forall b, In b l -> exists r e s, beside_boundary ms (eq b) r e s end) /\
  forall iEPs, involved_parts tuple bnames ms q = Some iEPs -> length iEPs = length ms /\
    forall r iEP, nth_error iEPs r = Some iEP -> forall e s, In (e, s) iEP <-> beside_boundary ms (asked q) r e s.
Proof. exact involved_ok. Qed.
Print Assumptions C66_requests.
(** the local dofs prescribed in an element are those with cells on these sides *)
Theorem C66_dofs : forall tuple bnames ms q k p, (forall l x, In x (tuple l) <-> In x l) -> (forall e row, In (e, row) (concat ms) -> length row = 6) -> length p = 3 -> Forall (fun n => 1 <= n) p ->
  forall iEPs, involved_parts tuple bnames ms q = Some iEPs -> length iEPs = length ms /\ exists D, forall r iEP, nth_error iEPs r = Some iEP ->
    parse_dofs (local_side k p) iEP = Some (D r) /\ NoDup (map fst (D r)) /\ (forall e, In e (map fst (D r)) -> exists m row, nth_error ms r = Some m /\ In (e, row) m) /\
    forall e d, In d (dofs_at D r e) <-> boundary_dof p (cell_types k) ms (asked q) r e d.
Proof. exact all_dofs. Qed.
Print Assumptions C66_dofs.
(** (2, 1, 1) elements on two cores, boundary 1 on the left of element 0, boundary 3 around *)
Definition one_parts (q : request) : option (list (list part)) := match one_maps [2; 1; 1] [] [[0]; [1]] with Some ms => involved_parts (fun l => l) [1; 2; 3] ms q | None => None end.
Example C66_parts_ex :
  one_parts (Those [1]) = Some [[(0, (0, false))]; []] /\ one_parts (Those [2; 1]) = Some [[(0, (0, false))]; [(1, (0, true))]] /\ one_parts (Those [4]) = None /\
  option_map (map (@length part)) (one_parts All) = Some [5; 5] /\
  match one_parts (Those [1; 3]) with Some iEPs => map (parse_dofs (local_side F2 [1; 1; 1])) iEPs | None => [] end = [Some [(0, [0; 2; 3; 4; 5])]; Some [(1, [2; 3; 4; 5])]].
Proof. vm_compute. repeat split. Qed.

(** a condition is on all places of a dof or on none: for hybrid forms and 3-forms on every mesh, *)
Theorem C66_hybrid : forall tuple bnames ms q k p N, (forall l x, In x (tuple l) <-> In x l) -> (forall e row, In (e, row) (concat ms) -> length row = 6) -> length p = 3 -> Forall (fun n => 1 <= n) p ->
  map fst (concat ms) = seq 0 N -> forall iEPs, involved_parts tuple bnames ms q = Some iEPs -> ready k p ms q iEPs (hybrid_numbering (length (cells p (cell_types k))) ms).
Proof. exact ready_hybrid. Qed.
Print Assumptions C66_hybrid.
(** for 2-forms on every mesh, *)
Theorem C66_faces : forall corner bnames bsides m g lays sc bps pairs,
  (forall b, In b bnames -> length lays <= b) -> (forall x, In x bsides -> In (fst x) bnames /\ snd (snd x) < 6) -> region_map corner (length lays) bnames bsides = Some m ->
  Forall (fun lay => length lay = 3 /\ Forall (fun n => 1 <= n) lay) lays -> (forall r lay, nth_error lays r = Some lay -> lens_ok (prodl lay) (sc r)) ->
  boundary_pairs bsides bps = Some pairs ->
  let num r := option_map fst (region_numbering g lays sc r) in let rm r i := name_of (m r i) in
  forall SIZE rs ms, partition SIZE (sum (map prodl lays)) rs -> Forall2 (fun els mm => core_map num lays rm bnames pairs els = Some mm) rs ms ->
  forall tuple p gms q, (forall l x, In x (tuple l) <-> In x l) -> length p = 3 -> Forall (fun n => 1 <= n) p -> naive F2 p ms = Some gms ->
  forall iEPs, involved_parts tuple bnames ms q = Some iEPs -> ready F2 p ms q iEPs gms.
Proof. exact ready_faces. Qed.
Print Assumptions C66_faces.
(** for 0-, 1- and 2-forms on meshes of one region, periodic or not *)
Theorem C66_box : forall corner bnames bsides m g lay sc bps pairs,
  (forall b, In b bnames -> 1 <= b) -> (forall x, In x bsides -> In (fst x) bnames /\ snd (snd x) < 6) -> region_map corner 1 bnames bsides = Some m ->
  length lay = 3 -> Forall (fun n => 1 <= n) lay -> lens_ok (prodl lay) (sc 0) -> boundary_pairs bsides bps = Some pairs ->
  let num r := option_map fst (region_numbering g [lay] sc r) in let rm r i := name_of (m r i) in
  forall SIZE rs ms, partition SIZE (prodl lay) rs -> Forall2 (fun els mm => core_map num [lay] rm bnames pairs els = Some mm) rs ms ->
  forall k p, length p = 3 -> Forall (fun n => 1 <= n) p -> (forall a, a < 3 -> periodic_axis pairs a -> 2 <= nth a lay 0) ->
  forall tuple q, (forall l x, In x (tuple l) <-> In x l) ->
  exists gms, naive k p ms = Some gms /\ forall iEPs, involved_parts tuple bnames ms q = Some iEPs -> ready k p ms q iEPs gms.
Proof. exact ready_box'. Qed.
Print Assumptions C66_box.
(** with several regions it may be on some places only: the vertical edge at the re-entrant corner of an L, all boundaries asked for; the row of the dof keeps entries of the element without a side there *)
Theorem C66_corner_refuted : exists m g l, L_map = Some m /\ naive F1 [1; 1; 1] [m] = Some g /\ on_one_core F1 [1; 1; 1] [3] L_map All = Some (g, l) /\
  prescribed 1 g (fun _ => l) 11 /\ ~ saturated 1 g (fun _ => l) /\ left_over 12 g l 11 0.
Proof. exact corner_case. Qed.
Print Assumptions C66_corner_refuted.
(** and the nodes between two elements in line of which one is beside the boundary asked for *)
Theorem C66_names_refuted : exists m g l, line_map = Some m /\ naive F0 [1; 1; 1] [m] = Some g /\ on_one_core F0 [1; 1; 1] [2; 3] line_map (Those [2]) = Some (g, l) /\
  prescribed 1 g (fun _ => l) 1 /\ ~ saturated 1 g (fun _ => l) /\ left_over 8 g l 1 8.
Proof. exact names_case. Qed.
Print Assumptions C66_names_refuted.

(** the values taken from the cochains *)
Theorem C66_values : forall (K : CRing) k p ms q iEPs (g : GMat) D (lcs : nat -> local_cochain K) (wl : nat -> nat -> nat -> K) (w : nat -> K), length p = 3 -> Forall (fun n => 1 <= n) p ->
  (forall r iEP, nth_error iEPs r = Some iEP -> forall e s, In (e, s) iEP <-> beside_boundary ms (asked q) r e s) ->
  (forall r, r < length g -> exists iEP, nth_error iEPs r = Some iEP /\ parse_dofs (local_side k p) iEP = Some (D r)) ->
  (forall r iEP, r < length g -> nth_error iEPs r = Some iEP -> carries (local_side k p) (D r) iEP (wl r) (lcs r)) ->
  (forall r e v d n, gv_of g r e = Some v -> nth_error v d = Some n -> wl r e d = w n) ->
  exists C, (forall r, r < length g -> exists iEP, nth_error iEPs r = Some iEP /\ parse_cochains K (D r) iEP (lcs r) = Some (C r)) /\
    valued (length g) D (fun r => Some (C r)) /\ values_are (length g) g D (fun r => Some (C r)) w.
Proof. exact values_all. Qed.
Print Assumptions C66_values.
Example C66_values_ex : parse_cochains ZR [(0, [0; 2; 3])] [(0, (0, false)); (0, (1, false)); (0, (1, true))] (@LocallyFull ZR [(0, [10; 11; 12; 13; 14; 15]%Z)]) = Some [(0, [10; 12; 13]%Z)] /\
  parse_cochains ZR [(0, [0; 2; 3])] [(0, (0, false)); (0, (1, false)); (0, (1, true))] (@SideWise ZR (fun _ => Some (fun s => Some [Z.of_nat (fst s)]))) = Some [(0, [0; 1; 1]%Z)].
Proof. split; reflexivity. Qed.

(** what a condition does to the assembled system: diagonal block, *)
Theorem C66_rows : forall (K : CRing) SIZE I J rgms cgms ns ms, well_numbered SIZE rgms ns -> well_numbered SIZE cgms ms ->
  (forall g, In g rgms -> regular g) -> (forall g, In g cgms -> regular g) -> same_cores SIZE (nth 0 rgms []) (nth 0 cgms []) ->
  forall i g, nth_error rgms i = Some g -> nth_error cgms i = Some g -> i < I -> i < J -> sum (firstn i (map gv_len rgms)) = sum (firstn i (map gv_len cgms)) ->
  forall it : nat -> itp K, let D r := i_dofs (it r) in let V r := i_cochains (it r) in
  in_range SIZE g D -> valued SIZE D V -> saturated SIZE g D ->
  forall Ac bc, exists Ac' bc', apply_strong_BC K SIZE I J rgms cgms rgms i i it None Ac bc = Some (Ac', bc') /\
  forall Ab Bb A b, sizes_match K SIZE rgms cgms Ab -> vsizes_match K SIZE rgms Bb -> assembled K SIZE rgms cgms Ab Ac A -> vassembled K SIZE rgms Bb bc b ->
  exists A' b', assembled K SIZE rgms cgms Ab Ac' A' /\ vassembled K SIZE rgms Bb bc' b' /\
    (forall n, prescribed SIZE g D n ->
       (forall c, A' (sum (firstn i ns) + n) c = if c =? sum (firstn i ms) + n then nmul (length (places SIZE g n)) r1 else r0) /\
       b' (sum (firstn i ns) + n) = bsum (places SIZE g n) (value_or_0 D V)) /\
    (forall a, (forall n, prescribed SIZE g D n -> a <> sum (firstn i ns) + n) -> (forall c, A' a c = A a c) /\ b' a = b a).
Proof. exact strong_diag. Qed.
Print Assumptions C66_rows.
(** and another block: the row becomes the equation of the partner of the dof in the column form *)
Theorem C66_off_diagonal : forall (K : CRing) SIZE I J rgms cgms ns ms, well_numbered SIZE rgms ns -> well_numbered SIZE cgms ms ->
  (forall g, In g rgms -> regular g) -> (forall g, In g cgms -> regular g) -> same_cores SIZE (nth 0 rgms []) (nth 0 cgms []) ->
  forall i j g h, nth_error rgms i = Some g -> nth_error cgms j = Some h -> i < I -> j < J -> i <> j ->
  forall row col : nat -> itp K, let D r := i_dofs (row r) in let C r := i_dofs (col r) in let V r := i_cochains (col r) in
  in_range SIZE g D -> in_range SIZE h C -> paired_up SIZE D C -> valued SIZE D V -> saturated SIZE g D ->
  forall Ac bc, exists Ac' bc', apply_strong_BC K SIZE I J rgms cgms rgms i j row (Some col) Ac bc = Some (Ac', bc') /\
  forall Ab Bb A b, sizes_match K SIZE rgms cgms Ab -> vsizes_match K SIZE rgms Bb -> assembled K SIZE rgms cgms Ab Ac A -> vassembled K SIZE rgms Bb bc b ->
  exists A' b', assembled K SIZE rgms cgms Ab Ac' A' /\ vassembled K SIZE rgms Bb bc' b' /\
    (forall n, prescribed SIZE g D n ->
       (forall c, A' (sum (firstn i ns) + n) c = bsum (places SIZE g n) (fun p => if match partner_number h D C p with Some m => c =? sum (firstn j ms) + m | None => false end then r1 else r0)) /\
       b' (sum (firstn i ns) + n) = bsum (places SIZE g n) (value_or_0 D V)) /\
    (forall a, (forall n, prescribed SIZE g D n -> a <> sum (firstn i ns) + n) -> (forall c, A' a c = A a c) /\ b' a = b a).
Proof. exact strong_off. Qed.
Print Assumptions C66_off_diagonal.
(** a node on two sides and its two dofs of a trace form: both are in the row *)
Theorem C66_partners_refuted : exists Ac' bc', apply_strong_BC ZR 1 1 2 [nodes_gm] [nodes_gm; traces_gm] [nodes_gm] 0 1 (fun _ => @mkI ZR node_sides None)
    (Some (fun _ => @mkI ZR trace_sides (Some [(0, [1; 2; 3; 4; 1; 5; 3; 6]%Z)]))) (fun _ => []) (fun _ => []) = Some (Ac', bc') /\
  (exists A', assembled ZR 1 [nodes_gm] [nodes_gm; traces_gm] (fun _ _ => mkL ZR 8 32 (fun _ _ => 0%Z)) Ac' A') /\
  forall A', assembled ZR 1 [nodes_gm] [nodes_gm; traces_gm] (fun _ _ => mkL ZR 8 32 (fun _ _ => 0%Z)) Ac' A' -> A' 0 8 = 1%Z /\ A' 0 16 = 1%Z.
Proof. exact partners_case. Qed.
Print Assumptions C66_partners_refuted.
(** the solutions of the system with the condition *)
Theorem C66_solution : forall K, n_times_injective K -> forall SIZE I J gms ns, well_numbered SIZE gms ns -> (forall g, In g gms -> regular g) ->
  forall i g, nth_error gms i = Some g -> i < I -> i < J -> forall (it : nat -> itp K) (w : nat -> K),
  let D r := i_dofs (it r) in let V r := i_cochains (it r) in
  in_range SIZE g D -> valued SIZE D V -> saturated SIZE g D -> values_are SIZE g D V w ->
  forall Ac bc, exists Ac' bc', apply_strong_BC K SIZE I J gms gms gms i i it None Ac bc = Some (Ac', bc') /\
  forall Ab Bb A b, sizes_match K SIZE gms gms Ab -> vsizes_match K SIZE gms Bb -> assembled K SIZE gms gms Ab Ac A -> vassembled K SIZE gms Bb bc b ->
  exists A' b', assembled K SIZE gms gms Ab Ac' A' /\ vassembled K SIZE gms Bb bc' b' /\
    forall x, solves K (sum ns) A' b' x <-> solves_with (sum ns) (sum (firstn i ns)) (prescribed SIZE g D) w A b x.
Proof. exact strong_solution. Qed.
Print Assumptions C66_solution.
(** from the boundaries asked for to the solutions: those with the values w at the dofs on these boundaries which satisfy all other equations *)
Theorem C66_condition : forall K, n_times_injective K -> forall I J gms ns i (g : GMat), well_numbered (length g) gms ns -> (forall g, In g gms -> regular g) ->
  nth_error gms i = Some g -> i < I -> i < J -> forall k p (ms : list emap) q iEPs (lcs : nat -> local_cochain K) (wl : nat -> nat -> nat -> K) (w : nat -> K),
  length p = 3 -> Forall (fun n => 1 <= n) p ->
  (forall r iEP, nth_error iEPs r = Some iEP -> forall e s, In (e, s) iEP <-> beside_boundary ms (asked q) r e s) -> ready k p ms q iEPs g ->
  (forall r iEP D, nth_error iEPs r = Some iEP -> parse_dofs (local_side k p) iEP = Some D -> carries (local_side k p) D iEP (wl r) (lcs r)) ->
  (forall r e v d n, gv_of g r e = Some v -> nth_error v d = Some n -> wl r e d = w n) ->
  exists it : nat -> itp K,
    (forall r, r < length g -> exists iEP c, nth_error iEPs r = Some iEP /\ parse_dofs (local_side k p) iEP = Some (i_dofs (it r)) /\
       i_cochains (it r) = Some c /\ parse_cochains K (i_dofs (it r)) iEP (lcs r) = Some c) /\
    forall Ac bc, exists Ac' bc', apply_strong_BC K (length g) I J gms gms gms i i it None Ac bc = Some (Ac', bc') /\
    forall Ab Bb A b, sizes_match K (length g) gms gms Ab -> vsizes_match K (length g) gms Bb -> assembled K (length g) gms gms Ab Ac A -> vassembled K (length g) gms Bb bc b ->
    exists A' b', assembled K (length g) gms gms Ab Ac' A' /\ vassembled K (length g) gms Bb bc' b' /\
      forall x, solves K (sum ns) A' b' x <-> solves_with (sum ns) (sum (firstn i ns)) (fun n => exists r e v d, gv_of g r e = Some v /\ nth_error v d = Some n /\ boundary_dof p (cell_types k) ms (asked q) r e d) w A b x.
Proof. exact strong_condition. Qed.
Print Assumptions C66_condition.
(** 2-forms on (2, 1, 1) elements, two cores, the condition x = 5 on boundary 1 (dof 0) and local matrices full of ones: rows 0 and 1 *)
Definition demo : option (list Z * list Z * list Z) :=
  match one_numbers F2 [2; 1; 1] [1; 1; 1] [] [[0]; [1]], one_parts (Those [1]) with
  | Some g, Some iEPs =>
      match apply_strong_BC ZR 2 1 1 [g] [g] [g] 0 0 (fun r => match parse_dofs (local_side F2 [1; 1; 1]) (nth r iEPs []) with
                                                          | Some l => @mkI ZR l (Some (map (fun ed => (fst ed, map (fun _ => 5%Z : ZR) (snd ed))) l)) | None => @mkI ZR [] None end) None (fun _ => []) (fun _ => []) with
      | Some (Ac, bc) =>
          let A a b := bsum (K := ZR) (seq 0 2) (fun r => bsum (K := ZR) (elements g r) (fun e => match gv_of g r e, local_matrix ZR (ones 6) Ac r e with Some v, Some M => scat ZR v v (ent ZR M) a b | _, _ => 0%Z end)) in
          let B a := bsum (K := ZR) (seq 0 2) (fun r => bsum (K := ZR) (elements g r) (fun e => match gv_of g r e, local_vector ZR (zero_vector 6) bc r e with Some v, Some M => vscat ZR v (vent ZR M) a | _, _ => 0%Z end)) in
          Some (map (A 0) (seq 0 11), map (A 1) (seq 0 11), map B (seq 0 11))
      | None => None
      end
  | _, _ => None
  end.
Example C66_demo_ex : demo = Some ([1; 0; 0; 0; 0; 0; 0; 0; 0; 0; 0]%Z, [1; 2; 1; 1; 1; 1; 1; 1; 1; 1; 1]%Z, [5; 0; 0; 0; 0; 0; 0; 0; 0; 0; 0]%Z).
Proof. vm_compute. reflexivity. Qed.
Example C66_injective_ex : n_times_injective ZR.
Proof. exact injective_Z. Qed.
(** a constant for a vector is the same as entries *)
Theorem C66_constant : forall (K : CRing) I gms i (it : itp K) v cus, NoDup (map fst (i_dofs it)) ->
  set_constant_core K I gms i it v cus = set_entries_core K I gms i it (Some (map (fun ed => (fst ed, map (fun _ => v) (snd ed))) (i_dofs it))) cus.
Proof. exact constant_entries. Qed.
Print Assumptions C66_constant.

(** the cache: if no address is used twice, the dofs are those of the latest boundaries of the form *)
Theorem C66_cache : forall sides evs f iEP, NoDup (addresses evs) -> latest evs f None = Some iEP -> fst (interpret_local sides (crun sides evs) f) = parse_dofs (sides f) iEP.
Proof. exact cache_ok. Qed.
Print Assumptions C66_cache.
Example C66_cache_ex : let evs := [SetBoundaries 0 7 first_parts; Interpret 0; SetBoundaries 1 8 first_parts; SetBoundaries 0 9 third_parts; Interpret 1] in
  NoDup (addresses evs) /\ latest evs 0 None = Some third_parts /\ fst (interpret_local two_forms (crun two_forms evs) 0) = Some [(0, [1; 3; 5; 7])].
Proof. split; [repeat constructor; cbn; intuition discriminate|]. split; reflexivity. Qed.
(** otherwise they may be those of an earlier list, also if no two lists existing at the same time have the same address *)
Theorem C66_cache_refuted : distinct_alive address_twice [] /\ latest address_twice 0 None = Some third_parts /\
  fst (interpret_local (fun _ => local_side F0 [1; 1; 1]) (crun (fun _ => local_side F0 [1; 1; 1]) address_twice) 0) <> parse_dofs (local_side F0 [1; 1; 1]) third_parts.
Proof. exact cache_case. Qed.
Print Assumptions C66_cache_refuted.
Theorem C66_deleted_refuted : distinct_alive deleted_form [] /\ latest deleted_form 1 None = Some first_parts /\
  fst (interpret_local two_forms (crun two_forms deleted_form) 1) <> parse_dofs (two_forms 1) first_parts.
Proof. exact cache_case2. Qed.
Print Assumptions C66_deleted_refuted.
