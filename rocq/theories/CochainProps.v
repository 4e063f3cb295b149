(** Properties of global cochains. *)
From Coq Require Import String List Arith ZArith QArith Qcanon Bool.
From Verif Require Import Prelude SpaceModel AssembleModel MeshModel MeshSpec MeshProofs MeshMapModel MeshMapSpec SpacingModel GatherModel GatherSpec CochainModel CochainSpec CochainProofs2 CochainProofs3 CochainProofs4 CochainProofs5 CochainProofs6.
Import ListNotations.
Local Open Scope nat_scope.
Local Open Scope list_scope.

(** C64: for non-hybrid forms below volume forms, the global cochain has the values of the dofs, in the master core, and setting it gives
    the local cochains back, whatever np.empty contains *)
Theorem C64_shared : forall gms K locs c, global_num_dofs gms = Some K -> agrees gms locs c ->
  exists ps, globe false gms locs = Some ps /\ length ps = length gms /\ master_dominating ps = true /\
    (forall r d, on_core gms r d -> qsum (map (fun p => entry_of p d) ps) = c d) /\
    forall junk, exists locs', set_globe junk gms K ps = Some locs' /\ restored gms c locs'.
Proof. exact shared_trip. Qed.
Print Assumptions C64_shared.
(** for hybrid forms and volume forms this holds if all values on other cores than the master are zero; otherwise exactly the dofs of
    value zero get what np.empty contained *)
Theorem C64_whole : forall gms K locs c, global_num_dofs gms = Some K -> agrees gms locs c -> (forall r r' d, on_core gms r d -> on_core gms r' d -> r = r') ->
  exists ps, globe true gms locs = Some ps /\ length ps = length gms /\
    (forall r d, on_core gms r d -> qsum (map (fun p => entry_of p d) ps) = c d) /\
    forall junk, exists locs', set_globe junk gms K ps = Some locs' /\
      ((forall r d, 0 < r -> on_core gms r d -> c d = q0) -> restored gms c locs') /\
      (~ (forall r d, 0 < r -> on_core gms r d -> c d = q0) -> restored gms (fun d => if is0 (c d) then junk d else c d) locs').
Proof. exact whole_trip. Qed.
Print Assumptions C64_whole.
(** so the round trip fails: two elements on two cores with the cochains (1,0), (1,1) *)
Definition two_gms : GMat := [[(0, [0; 1])]; [(1, [2; 3])]].
Definition q (n : nat) : Qc := qnat n.
Theorem C64_round_trip_refuted : exists gms K locs c junk ps locs', global_num_dofs gms = Some K /\ agrees gms locs c /\
  (forall r r' d, on_core gms r d -> on_core gms r' d -> r = r') /\ globe true gms locs = Some ps /\ set_globe junk gms K ps = Some locs' /\ ~ restored gms c locs'.
Proof. exact whole_refuted. Qed.
Print Assumptions C64_round_trip_refuted.
(** through a locally full vector the cochains come back for all forms; vectors that are too short are refused *)
Theorem C64_full : forall b gms K locs c, sound (mkForm b gms (Some locs)) K c ->
  exists ps locs', globe b gms locs = Some ps /\ set_full gms (full_of K ps) = Some locs' /\ restored gms c locs'.
Proof. exact round_trip_any. Qed.
Print Assumptions C64_full.
Theorem C64_set_full : forall gms K V, global_num_dofs gms = Some K ->
  (K <= length V -> exists locs', set_full gms V = Some locs' /\ restored gms (fun d => nth d V q0) locs') /\ (length V < K -> set_full gms V = None).
Proof. exact round_trip1. Qed.
Print Assumptions C64_set_full.
(** three elements on three cores with shared dofs *)
Definition shared_gms : GMat := [[(0, [0; 1])]; [(1, [1; 2])]; [(2, [2; 3])]].
Definition shown (ps : list part) : list (list (nat * Q)) := map (map (fun x => (fst x, this (snd x)))) ps.
Definition shared_locs : list lcoch := [[(0, [q 5; q 0])]; [(1, [q 0; q 7])]; [(2, [q 7; q 0])]].
Example C64_ex : agrees shared_gms shared_locs (fun d => nth d [q 5; q 0; q 7; q 0] q0) /\
  option_map shown (globe false shared_gms shared_locs) = Some [[(0, 5%Q); (2, 7%Q)]; []; []] /\
  set_globe (fun _ => q 9) shared_gms 4 [[(0, q 5); (2, q 7)]; []; []] = Some shared_locs /\
  globe true two_gms [[(0, [q 1; q 0])]; [(1, [q 1; q 1])]] = Some [[(0, q 1)]; [(2, q 1); (3, q 1)]] /\
  set_globe (fun _ => q 9) two_gms 4 [[(0, q 1)]; [(2, q 1); (3, q 1)]] = Some [[(0, [q 1; q 9])]; [(1, [q 1; q 1])]] /\
  globe true shared_gms shared_locs = None.
Proof.
  split.
  - split; [reflexivity|]. intros [|[|[|r]]] e v H; cbn in H; try (destruct H as [[= <- <-]|[]]; reflexivity). destruct r; contradiction.
  - repeat split; vm_compute; reflexivity.
Qed.

(** C67: the cochains of several forms, put into one vector, come back from it; the vector has the dofs of form j behind those of the
    forms before it *)
Theorem C67_round_trip : forall fs Ks cs, Forall2 (fun f Kc => sound f (fst Kc) (snd Kc)) fs (combine Ks cs) -> length Ks = length cs ->
  exists V ls, full_of_forms fs = Some V /\ length V = sum Ks /\
    (forall j f c r e v d, nth_error fs j = Some f -> nth_error cs j = Some c -> In (e, v) (nth r (f_gm f) []) -> In d v -> nth (sum (firstn j Ks) + d) V q0 = c d) /\
    distributed_to V (map (fun f => Some (f_gm f)) fs) = Some (map Some ls) /\ length ls = length fs /\
    forall j f c l, nth_error fs j = Some f -> nth_error cs j = Some c -> nth_error ls j = Some l -> restored (f_gm f) c l.
Proof. exact round_trip. Qed.
Print Assumptions C67_round_trip.
(** any vector: form j gets the entries behind those of the forms before it; too short vectors are refused *)
Theorem C67_slices : forall V gs ns, Forall2 (fun g n => global_num_dofs g = Some n) gs ns ->
  (sum ns <= length V -> exists ls, distributed_to V (map Some gs) = Some (map Some ls) /\ length ls = length gs /\ forall j g l, nth_error gs j = Some g -> nth_error ls j = Some l -> restored g (fun d => nth (sum (firstn j ns) + d) V q0) l) /\
  (length V < sum ns -> distributed_to V (map Some gs) = None).
Proof. exact distributed_ok. Qed.
Print Assumptions C67_slices.
(** with one None among the forms, the forms behind it get the last entries *)
Theorem C67_none : forall V gs hs ns ms, Forall2 (fun g n => global_num_dofs g = Some n) gs ns -> Forall2 (fun g n => global_num_dofs g = Some n) hs ms ->
  let a := map Some gs ++ None :: map Some hs in
  (sum ns + sum ms < length V -> exists ls ks, distributed_to V a = Some (map Some ls ++ None :: map Some ks) /\ length ls = length gs /\ length ks = length hs /\
    (forall j g l, nth_error gs j = Some g -> nth_error ls j = Some l -> restored g (fun d => nth (sum (firstn j ns) + d) V q0) l) /\
    (forall j g l, nth_error hs j = Some g -> nth_error ks j = Some l -> restored g (fun d => nth (length V - sum ms + sum (firstn j ms) + d) V q0) l)) /\
  (length V <= sum ns + sum ms -> distributed_to V a = None).
Proof. exact distributed_none. Qed.
Print Assumptions C67_none.
(** with a chained gathering matrix: the same for the method silly, *)
Theorem C67_chain_silly : forall SIZE gms ns nbs V, well_numbered SIZE gms ns -> length nbs = length gms -> (forall j g r e v, nth_error gms j = Some g -> gv_of g r e = Some v -> nth_error nbs j = Some (length v)) ->
  sum ns <= length V -> let els := map (elements (nth 0 gms [])) (seq 0 SIZE) in
  exists out, distributed_chain V (CGM_getitem SIZE gms Silly) els nbs = Some out /\ length out = length gms /\
    forall j g o, nth_error gms j = Some g -> nth_error out j = Some o -> map (map fst) o = els /\
      forall r e v, gv_of g r e = Some v -> In (e, map (fun d => nth (sum (firstn j ns) + d) V q0) v) (nth r o []).
Proof. exact chain_silly_ok. Qed.
Print Assumptions C67_chain_silly.
(** and for any chained matrix, basis function i of form j gets the value of its dof in the chain *)
Theorem C67_chain : forall V cgm els nbs, (forall r l e, nth_error els r = Some l -> In e l -> exists w, cgm r e = Some w /\ length w = sum nbs /\ Forall (fun d => d < length V) w) ->
  exists out, distributed_chain V cgm els nbs = Some out /\ length out = length nbs /\
    forall j n o, nth_error nbs j = Some n -> nth_error out j = Some o -> map (map fst) o = els /\
      forall r l e w, nth_error els r = Some l -> In e l -> cgm r e = Some w -> exists x, In (e, x) (nth r o []) /\ length x = n /\ forall i, i < n -> nth i x q0 = nth (nth (sum (firstn j nbs) + i) w 0) V q0.
Proof. exact chain_ok. Qed.
Print Assumptions C67_chain.
(** the vector made with chain_method='sequent' does not give the cochain back: dofs of two elements are doubled *)
Definition line_gm : GMat := [[(0, [0; 1]); (1, [1; 2])]].
Definition line_form : form := mkForm false line_gm (Some [[(0, [q 1; q 1]); (1, [q 1; q 1])]]).
Theorem C67_sequent_refuted : sound line_form 3 (fun _ => q 1) /\ option_map (map this) (full_of_forms_sequent 1 [line_form]) = Some [1; 2; 1]%Q /\
  distributed_chain [q 1; q 2; q 1] (CGM_getitem 1 [line_gm] Sequent) [[0; 1]] [2] = Some [[[(0, [q 1; q 2]); (1, [q 2; q 1])]]] /\
  option_map (map this) (full_of_forms [line_form]) = Some [1; 1; 1]%Q.
Proof.
  split; [|repeat split; vm_compute; reflexivity]. split; [reflexivity|]. split; [|discriminate]. split; [reflexivity|]. intros [|r] e v H.
  - cbn in H. destruct H as [[= <- <-]|[[= <- <-]|[]]]; reflexivity.
  - destruct r; contradiction.
Qed.
Print Assumptions C67_sequent_refuted.
Example C67_ex : option_map (map this) (full_of_forms [line_form; mkForm true [[(0, [0]); (1, [1])]] None]) = Some [1; 1; 1; 0; 0]%Q /\
  distributed_to (map q [1; 2; 3; 4; 5; 6; 7]) [Some line_gm; None; Some [[(0, [0]); (1, [1])]]] =
    Some [Some [[(0, [q 1; q 2]); (1, [q 2; q 3])]]; None; Some [[(0, [q 6]); (1, [q 7])]]] /\
  distributed_to (map q [1; 2; 3; 4]) [Some line_gm; Some [[(0, [0]); (1, [1])]]] = None.
Proof. repeat split; vm_compute; reflexivity. Qed.

(** C84: cochains grouped by region and local indices and given to a mesh of the same layouts, numbered and distributed in any other way:
    every element gets the cochain of the element at its place *)
Theorem C84_regrouped : forall rname lays g sc g' sc' SIZE SIZE' rs rs' locs, (forall a b : nat, rname a = rname b -> a = b) ->
  Forall (fun lay => length lay = 3 /\ Forall (fun n => 1 <= n) lay) lays ->
  (forall r lay, nth_error lays r = Some lay -> lens_ok (prodl lay) (sc r) /\ lens_ok (prodl lay) (sc' r)) ->
  let num r := option_map fst (region_numbering g lays sc r) in let num' r := option_map fst (region_numbering g' lays sc' r) in
  let N := sum (map prodl lays) in partition SIZE N rs -> partition SIZE' N rs' -> map (map fst) locs = rs ->
  exists rw locs', group rname (find_element num lays) N locs = Some rw /\
    Forall2 (fun els loc => ungroup rname (find_element num' lays) els rw = Some loc) rs' locs' /\ map (map fst) locs' = rs' /\
    forall e e' r idx c, located num lays e r idx -> located num' lays e' r idx -> In (e, c) (concat locs) -> In (e', c) (concat locs').
Proof. exact mesh_regrouped. Qed.
Print Assumptions C84_regrouped.
(** the texts used as keys determine region and indices, for all names of regions *)
Theorem C84_keys : forall rname x y, (forall a b, rname a = rname b -> a = b) -> rw_key rname x = rw_key rname y -> x = y.
Proof. exact key_inj. Qed.
Print Assumptions C84_keys.
(** 12 elements saved from three cores and read on two, numbered otherwise *)
Definition name2 (r : nat) : string := if r =? 0 then "R:a"%string else "R:a=|=(0, 0, 0)"%string.
Definition old_num (r : nat) := option_map fst (region_numbering (fun _ _ => 0) [[2; 2; 2]; [4; 1; 1]] (fun _ => OrderF) r).
Definition new_num (r : nat) := option_map fst (region_numbering (fun _ _ => 0) [[2; 2; 2]; [4; 1; 1]] (fun _ => OrderC) r).
Definition loc_of (els : list nat) : lcoch := map (fun e => (e, [q e])) els.
Example C84_ex : let lays := [[2; 2; 2]; [4; 1; 1]] in
  match group name2 (find_element old_num lays) 12 [loc_of (seq 0 5); loc_of (seq 5 3); loc_of (seq 8 4)] with
  | Some rw => lookup String.eqb "R:a=|=(1, 0, 1)"%string rw = Some [q 5] /\ map (fun els => ungroup name2 (find_element new_num lays) els rw) [seq 0 6; seq 6 6] =
      [Some [(0, [q 0]); (1, [q 4]); (2, [q 2]); (3, [q 6]); (4, [q 1]); (5, [q 5])]; Some [(6, [q 3]); (7, [q 7]); (8, [q 8]); (9, [q 9]); (10, [q 10]); (11, [q 11])]]
  | None => False
  end.
Proof. vm_compute. split; reflexivity. Qed.
