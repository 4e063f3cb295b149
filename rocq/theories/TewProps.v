(** Properties of trace cochains. *)
From Coq Require Import List Arith ZArith Lia.
From Verif Require Import Prelude SpaceModel SpaceSpec MeshSpec MeshModel
  MeshMapModel TraceModel TraceSpec RingSum AssembleModel AssembleSpec
  TewModel TewSpec TewProofs TewProofs2 TewProofs3 TewProofs4 TewProofs5
  TewExample.
Import ListNotations.

(** C141: trace forms of every degree on every core of a mesh fit. *)
Theorem C141_meshes : forall N ms, map fst (concat ms) = seq 0 N ->
  (forall e row, In (e, row) (concat ms) -> length row = 6) ->
  (forall e j f, TraceSpec.entry (concat ms) e j (El f) ->
     TraceSpec.entry (concat ms) f (facing j) (El e)) ->
  forall ups, Forall2 selfp ms ups ->
  forall outs G, trace_elements (combine ms ups) = Some (outs, G) ->
  forall o, In o outs -> forall px py pz,
  Forall (fun n => 1 <= n) [px; py; pz] -> forall k,
  let p := [px; py; pz] in
  let on := match k with 0 => on0 | 1 => on1 | _ => on2 end in
  fits (core_form o (onsides on p) (ntrace on p) Hybrid) /\
  exists L n,
    (match k with 0 => lg0 p | 1 => lg1 p | _ => lg2 p end) = Some L /\
    Z.of_nat n = (match k with 0 => nt0_nonhybrid p | 1 => nt1_nonhybrid p
                             | _ => nt2_nonhybrid p end) /\
    fits (core_form o (onsides on p) n (Gathered (combine (seq 0 6) L))).
Proof. exact forms_fit. Qed.
Print Assumptions C141_meshes.

Example C141_meshes_case : exists o,
  trace_elements (combine ex_ms [[]]) = Some ([o], 11) /\ snd o = ex_map.
Proof. destruct ex_core as [o [A [B _]]]. exists o. split; assumption. Qed.

(** C141: what the two setters accept. *)
Theorem C141_accepts : forall (K : CRing) m, fits m ->
  forall (L T : list (nat * list K)) s, keys_ok T ->
  ((exists s', set_local m L s = Done s') <-> local_shapes m L) /\
  ((exists s', set_tew m T s = Done s') <-> tew_shapes m T).
Proof.
  exact (fun K m F L T s N => conj (proj1 (set_local_accepts m L s))
                                   (set_tew_accepts m F T s N)).
Qed.
Print Assumptions C141_accepts.

(** C141: setting the values of trace elements gives the vectors of exactly
    the elements with all six sides given; they have these values on their
    sides if the sides agree, as they always do for hybrid forms. *)
Theorem C141_from_traces : forall (K : CRing) m, fits m ->
  forall (T : list (nat * list K)) s, keys_ok T -> tew_shapes m T ->
  exists L f, set_tew m T s = Done (mkstate (Some L) (Some T) (Some f)) /\
  keys_ok L /\ local_shapes m L /\
  (forall e, In e (map fst L) <-> exists tes, In (e, tes) (t_map m) /\
     forall te, In te tes -> In te (map fst T)) /\
  (f = true <-> forall e, In e (map fst (t_map m)) -> In e (map fst L)) /\
  (conforming m T -> forall e v te a w, In (e, v) L ->
     TewSpec.on_side m te e a -> In (te, w) T -> on_side_values m a v w).
Proof. exact (fun K m F => set_tew_ok m F). Qed.
Print Assumptions C141_from_traces.

Theorem C141_hybrid : forall (K : CRing) m, fits m -> t_dofs m = Hybrid ->
  forall T : list (nat * list K), keys_ok T -> conforming m T.
Proof. exact (fun K m F E T N => hybrid_conforming m F T E N). Qed.
Print Assumptions C141_hybrid.

(** C141: the values of trace elements after setting vectors. *)
Theorem C141_from_elements : forall (K : CRing) m, fits m ->
  forall (L : list (nat * list K)) s, keys_ok L -> local_shapes m L ->
  (forall e, In e (map fst L) -> In e (map fst (t_map m))) ->
  exists s1 T, set_local m L s = Done s1 /\
  get_tew m s1 = (Done (mkstate (Some L) (Some T)
    (Some (length L =? length (t_map m)))), Some T) /\
  keys_ok T /\ tew_shapes m T /\
  (forall te, In te (map fst T) <-> exists e, source m te e /\
     In e (map fst L)) /\
  (forall te w, In (te, w) T -> exists e a v, TewSpec.on_side m te e a /\
     In (e, v) L /\ on_side_values m a v w /\
     (t_dofs m = Hybrid -> In (te, (e, a)) (t_cp m))) /\
  (single_valued m L -> forall te w e a v, In (te, w) T ->
     TewSpec.on_side m te e a -> In (e, v) L -> on_side_values m a v w).
Proof. exact (fun K m F => get_tew_ok m F). Qed.
Print Assumptions C141_from_elements.

(** C141: the way there and back. *)
Theorem C141_there_and_back : forall (K : CRing) m, fits m ->
  forall (L : list (nat * list K)) s s1 s2 T s3,
  keys_ok L -> local_shapes m L -> covers m L -> single_valued m L ->
  set_local m L s = Done s1 -> get_tew m s1 = (Done s2, Some T) ->
  set_tew m T s2 = Done s3 ->
  exists L', s_local s3 = Some L' /\ same_dict L' L /\ s_full s3 = Some true.
Proof. exact (fun K m F => there_and_back m F). Qed.
Print Assumptions C141_there_and_back.

Theorem C141_only_single_valued : forall (K : CRing) m, fits m ->
  forall (L : list (nat * list K)) s s1 s2 T s3 L',
  t_dofs m = Hybrid -> keys_ok L -> local_shapes m L -> covers m L ->
  set_local m L s = Done s1 -> get_tew m s1 = (Done s2, Some T) ->
  set_tew m T s2 = Done s3 -> s_local s3 = Some L' -> same_dict L' L ->
  single_valued m L.
Proof. exact (fun K m F => there_and_back_only m F). Qed.
Print Assumptions C141_only_single_valued.

Theorem C141_back_and_there : forall (K : CRing) m, fits m ->
  forall (T : list (nat * list K)) s s1 L s2,
  keys_ok T -> tew_shapes m T ->
  (forall te, In te (map fst (t_cp m)) -> In te (map fst T)) ->
  conforming m T ->
  set_tew m T s = Done s1 -> s_local s1 = Some L ->
  set_local m L s1 = Done s2 ->
  exists s3 T', get_tew m s2 = (Done s3, Some T') /\ same_dict T' T.
Proof. exact (fun K m F => back_and_there m F). Qed.
Print Assumptions C141_back_and_there.

Example C141_case :
  fits ex_hybrid /\ keys_ok ex_L /\ local_shapes ex_hybrid ex_L /\
  covers ex_hybrid ex_L /\ single_valued ex_hybrid ex_L /\
  keys_ok ex_T /\ tew_shapes ex_hybrid ex_T /\
  (forall te, In te (map fst (t_cp ex_hybrid)) -> In te (map fst ex_T)) /\
  exists s, set_tew ex_hybrid ex_T new_state = Done s /\
    s_local s = Some ex_L.
Proof.
  split; [apply ex_fit|]. split; [apply ex_keys|].
  split; [apply ex_local_shapes|]. split; [apply ex_covers|].
  split; [apply ex_single_valued|]. split; [apply ex_keys|].
  split; [apply ex_tew|]. split; [apply ex_tew|].
  eexists. split; vm_compute; reflexivity.
Qed.

Example C141_case_shared :
  fits ex_shared /\ keys_ok ex_S /\ local_shapes ex_shared ex_S /\
  covers ex_shared ex_S /\ single_valued ex_shared ex_S /\
  exists s1 s2 T, set_local ex_shared ex_S new_state = Done s1 /\
    get_tew ex_shared s1 = (Done s2, Some T) /\
    In (2, [10; 14; 12; 16]%Z) T /\ In (1, [14; 15; 16; 17]%Z) T.
Proof.
  split; [apply ex_fit|]. split; [apply ex_keys|].
  split; [apply ex_local_shapes|]. split; [apply ex_covers|].
  split; [apply ex_single_valued|].
  do 3 eexists. split; [vm_compute; reflexivity|].
  split; [vm_compute; reflexivity|]. split; cbn; tauto.
Qed.

(** C141: vectors that do not agree on a common trace element are changed on
    the way. *)
Theorem C141_changed_refuted : exists s1 s2 s3 L,
  set_local ex_hybrid ex_L' new_state = Done s1 /\
  get_tew ex_hybrid s1 = (Done s2, Some (rev ex_T)) /\
  set_tew ex_hybrid (rev ex_T) s2 = Done s3 /\ s_local s3 = Some L /\
  L = ex_L /\ s_local s1 = Some ex_L'.
Proof. exact not_single. Qed.
Print Assumptions C141_changed_refuted.

(** C141: an assignment that is rejected changes what is said about the
    cochain, which stays. *)
Theorem C141_rejected_refuted : exists s1 s2 : state ZR,
  set_local ex_hybrid ex_L new_state = Done s1 /\ s_full s1 = Some true /\
  set_local ex_hybrid [(0, [1; 2]%Z : list ZR)] s1 = Raised s2 /\
  s_local s2 = Some ex_L /\ s_full s2 = Some false.
Proof. exact rejected_changes. Qed.
Print Assumptions C141_rejected_refuted.

(** C141: vectors of elements the core does not have make a full cochain, with
    no trace element. *)
Theorem C141_foreign_refuted : exists s1 : state ZR,
  set_local ex_hybrid [(5, [1; 2; 3; 4; 5; 6]%Z : list ZR);
    (6, [1; 2; 3; 4; 5; 6]%Z : list ZR)]
    new_state = Done s1 /\ s_full s1 = Some true /\
  get_tew ex_hybrid s1 = (Done (mkstate (s_local s1) (Some []) (Some true)),
                          Some []).
Proof. exact foreign_full. Qed.
Print Assumptions C141_foreign_refuted.

(** C141: the vector of one element may leave one of its sides without
    values. *)
Theorem C141_partial_refuted : exists s1 s2 T,
  set_local ex_hybrid [(1, [2; 7; 8; 9; 10; 11]%Z : list ZR)]
    new_state = Done s1 /\
  get_tew ex_hybrid s1 = (Done s2, Some T) /\
  TewSpec.on_side ex_hybrid 1 1 0 /\ ~ In 1 (map fst T).
Proof. exact partial_misses. Qed.
Print Assumptions C141_partial_refuted.

(** C141: sides that do not agree are accepted; they and the vectors then say
    different things. *)
Theorem C141_disagree_refuted : exists s1 L v,
  set_tew ex_shared ex_bad new_state = Done s1 /\ s_local s1 = Some L /\
  get_tew ex_shared s1 = (Done s1, Some ex_bad) /\
  In (0, v) L /\ TewSpec.on_side ex_shared 2 0 2 /\
  In (2, [1; 1; 1; 1]%Z) ex_bad /\ v = [2; 2; 2; 2; 2; 2; 2; 2]%Z.
Proof. exact disagree. Qed.
Print Assumptions C141_disagree_refuted.
