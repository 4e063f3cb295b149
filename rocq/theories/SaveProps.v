(** Properties of saving and reading objects. *)
From Coq Require Import String Ascii List Arith ZArith QArith Qcanon Bool.
From Verif Require Import Prelude SpaceModel AssembleModel MeshModel MeshSpec MeshProofs MeshMapModel MeshMapSpec SpacingModel GatherModel CochainModel CochainSpec SaveModel SaveSpec SaveProofs SaveProofs2 SaveProofs3 SaveProofs4 SaveExample.
Import ListNotations.
Local Open Scope nat_scope.
Local Open Scope list_scope.

(** the situation of the examples: a mesh at 0 (copies of its parameters at 2 and 5), another one at 8, a space at 1 (copies at 3 and 6), keyword
    arguments at 4 and 7; two elements in the regions a and b, both on this core *)
Definition dA : dict := mesh_dict (Text "crazy") (Other 3) (Other 7) (Other 0).
Definition dB : dict := mesh_dict (Text "crazy") (Other 4) (Other 7) (Other 0).
Definition dS : dict := space_dict (Text "polynomials") (Other 2) (Other 0).
Definition heap0 : heap := fun l => match l with
  | 0 => dA | 1 => dS | 2 => dA | 3 => dS | 4 => [("hybrid", Text "True")] | 5 => dA | 6 => dS | 7 => [("name", Text "w")] | 8 => dB | 9 => dA
  | 10 => prime_kwargs "u" [] | _ => [] end%string.
Definition qi (n : nat) : Qc := Q2Qc (inject_Z (Z.of_nat n)).
Definition find0 (_ : dict) (e : nat) : option (nat * list nat) := if e <? 2 then Some (e, [0; 0; 0]) else None.
Definition rname0 (_ : dict) (r : nat) : string := if r =? 0 then "R:a"%string else "R:b"%string.
Definition rw0 (x y : nat) : rwc := [("R:a=|=(0, 0, 0)", [qi x]); ("R:b=|=(0, 0, 0)", [qi y])]%string.
Definition u0 : form := mkForm "0-f" 2 3 4 (Some (rw0 5 6)).
Definition w0 : form := mkForm "2-t" 5 6 7 (Some (rw0 7 8)).
Definition name0 (_ : string) (kw : dict) : string := match lookup String.eqb "name"%string kw with Some (Text s) => s | _ => "form"%string end.
Definition yes (_ : string) (_ : dict) : bool := true.
Definition ok (_ : dict) : bool := true.
Definition st0 : state := mkSt heap0 None None 0.
Definition read0 := read repr ok ok yes yes name0 (fun _ => [0; 1]) find0 rname0.
Definition ex0 := exists_in ok ok yes yes (fun _ => [0; 1]) find0 rname0 heap0.
(** what an object read looks like: identities of mesh and space, and the cochain *)
Definition brief (r : robj) : option nat * option nat * list (nat * list Q) :=
  (option_map b_id (mesh_read r), option_map b_id (space_read r),
   match r with RForm f | RDual _ _ f => match r_local f with Some l => map (fun ec => (fst ec, map this (snd ec))) l | None => [] end | _ => [] end).
Definition seen (x : option (state * result)) : option (bool * list (option nat * option nat * list (nat * list Q))) :=
  match x with Some (_, Objects rs) => Some (true, map brief rs) | Some (_, Object r) => Some (false, [brief r]) | None => None end.
Definition then_read (f : option file) (ri : individuals) := match f with Some f => seen (read0 st0 f ri) | None => None end.

(** C65: objects with dictionaries of their own, saved in a list, are read as they were and in the same order, whatever the caches hold; a
    list of one object is read as this object *)
Theorem C65_round_trip : forall show mesh_ok space_ok form_ok hybrid form_name els find rname h os st,
  faithful show -> Forall (exists_in mesh_ok space_ok form_ok hybrid els find rname h) os -> NoDup (flat_map addrs os) ->
  (forall l, In l (flat_map addrs os) -> ~ In l (flat_map kwargs_of os)) -> caches_ok show st -> (forall l, st_heap st l = h l) ->
  exists f st' rs res, save_list os = Some f /\ read show mesh_ok space_ok form_ok hybrid form_name els find rname st f All = Some (st', res) /\
    Forall2 (same form_name els find rname h) os rs /\ caches_ok show st' /\
    (length os <> 1 -> res = Objects rs) /\ (forall r, rs = [r] -> res = Object r).
Proof. intros until st. exact (all_ok show mesh_ok space_ok form_ok hybrid form_name els find rname h os st). Qed.
Print Assumptions C65_round_trip.
(** a single object *)
Theorem C65_one : forall show mesh_ok space_ok form_ok hybrid form_name els find rname h o st,
  faithful show -> exists_in mesh_ok space_ok form_ok hybrid els find rname h o -> (forall l, In l (addrs o) -> ~ In l (kwargs_of o)) ->
  caches_ok show st -> (forall l, st_heap st l = h l) ->
  exists f st' r, save_one o = Some f /\ read show mesh_ok space_ok form_ok hybrid form_name els find rname st f All = Some (st', Object r) /\
    same form_name els find rname h o r /\ caches_ok show st'.
Proof. intros until st. exact (one_ok show mesh_ok space_ok form_ok hybrid form_name els find rname h o st). Qed.
Print Assumptions C65_one.
(** read_individuals: None for the objects not asked for; dictionaries may be shared with them *)
Theorem C65_individuals : forall show mesh_ok space_ok form_ok hybrid form_name els find rname h bs os st, length bs = length os ->
  faithful show -> Forall (exists_in mesh_ok space_ok form_ok hybrid els find rname h) os ->
  let sel := map snd (filter fst (combine bs os)) in NoDup (flat_map addrs sel) -> (forall l, In l (flat_map addrs sel) -> ~ In l (flat_map kwargs_of sel)) ->
  caches_ok show st -> (forall l, st_heap st l = h l) ->
  exists f st' rs res, save_list os = Some f /\
    read show mesh_ok space_ok form_ok hybrid form_name els find rname st f (Each (map (fun b : bool => if b then 1%Z else 0%Z) bs)) = Some (st', res) /\
    Forall2 (same_if form_name els find rname h) (combine bs os) rs /\ caches_ok show st' /\
    (length os <> 1 -> res = Objects rs) /\ (forall r, rs = [r] -> res = Object r).
Proof. intros until st. exact (individuals_ok show mesh_ok space_ok form_ok hybrid form_name els find rname h bs os st). Qed.
Print Assumptions C65_individuals.
(** the mesh of a file is read as one object, if all its objects have this mesh *)
Theorem C65_one_mesh : forall show mesh_ok space_ok form_ok hybrid form_name els find rname h os st d f st' res,
  faithful show -> Forall (exists_in mesh_ok space_ok form_ok hybrid els find rname h) os -> Forall (fun o => has_mesh h o d) os ->
  NoDup (flat_map addrs os) -> (forall l, In l (flat_map addrs os) -> ~ In l (flat_map kwargs_of os)) -> caches_ok show st -> (forall l, st_heap st l = h l) ->
  save_list os = Some f -> read show mesh_ok space_ok form_ok hybrid form_name els find rname st f All = Some (st', res) ->
  exists i, match res with Objects rs => Forall (on_mesh i) rs | Object r => on_mesh i r end.
Proof. intros until res. exact (one_mesh show mesh_ok space_ok form_ok hybrid form_name els find rname h os st d f st' res). Qed.
Print Assumptions C65_one_mesh.
(** two forms, their mesh and the dual of one of them: mesh and space are built once, and cochains are back *)
Example C65_ex : Forall ex0 [Mesh 0; Form u0; Dual "AD_w" w0] /\ NoDup (flat_map addrs [Mesh 0; Form u0; Dual "AD_w" w0]) /\
  then_read (save_list [Mesh 0; Form u0; Dual "AD_w" w0]) All =
    Some (true, [(Some 0, None, []); (Some 0, Some 1, [(0, [5%Q]); (1, [6%Q])]); (Some 0, Some 1, [(0, [7%Q]); (1, [8%Q])])]) /\
  then_read (save_list [Mesh 0; Form u0; Dual "AD_w" w0]) (Each [0; 1; 0]%Z) = Some (true, [(None, None, []); (Some 1, Some 0, [(0, [5%Q]); (1, [6%Q])]); (None, None, [])]) /\
  then_read (save_one (Form u0)) All = Some (false, [(Some 1, Some 0, [(0, [5%Q]); (1, [6%Q])])]) /\
  then_read (save_list [Mesh 0; Form u0]) (Each [0; 2]%Z) = None /\ then_read (save_list [Mesh 0; Form u0]) (Single 1%Z) = None /\
  then_read (save_list []) All = Some (true, []).
Proof.
  split; [|split; [|repeat split; vm_compute; reflexivity]].
  - repeat apply Forall_cons; try apply Forall_nil; cbn; unfold form_exists; repeat split; try tauto; try (intros [X|[]]; discriminate);
      try (eexists _, _, _, _; reflexivity); try (eexists _, _, _; reflexivity); try (eexists _, _; split; reflexivity).
  - cbn. repeat constructor; cbn; intuition discriminate.
Qed.

(** C65 as stated: not for a list of one object; its file is not that of the object, and the same is read, in all states *)
Theorem C65_single_refuted : forall show mesh_ok space_ok form_ok hybrid form_name els find rname h o,
  exists_in mesh_ok space_ok form_ok hybrid els find rname h o ->
  exists f f', save_list [o] = Some f /\ save_one o = Some f' /\ f <> f' /\ forall st ri,
    read show mesh_ok space_ok form_ok hybrid form_name els find rname st f ri = read show mesh_ok space_ok form_ok hybrid form_name els find rname st f' ri.
Proof. exact single_same. Qed.
Print Assumptions C65_single_refuted.
(** a dictionary used by two objects (a form and its dual, or an object saved twice): the file can be written and not read by a new process *)
Theorem C65_shared_refuted : forall show mesh_ok space_ok form_ok hybrid form_name els find rname,
  (forall d, d <> [] -> show d <> show []) -> forall o os st f l, st_mesh st = None -> st_space st = None ->
  In l (addrs o) -> In l (flat_map addrs os) -> save_list (o :: os) = Some f -> read show mesh_ok space_ok form_ok hybrid form_name els find rname st f All = None.
Proof. exact cold_blocked. Qed.
Print Assumptions C65_shared_refuted.
(** the same file is read if the caches hold mesh and space already *)
Theorem C65_warm : forall show mesh_ok space_ok form_ok hybrid form_name els find rname h os dm ds bm bs st,
  faithful show -> Forall (exists_in mesh_ok space_ok form_ok hybrid els find rname h) os -> Forall (fun o => has_mesh h o dm) os -> Forall (fun o => has_space h o ds) os ->
  caches_ok show st -> (forall l, st_heap st l = h l) -> st_mesh st = Some (show dm, bm) -> st_space st = Some (show ds, bs) ->
  exists f st' rs, save_list os = Some f /\ read show mesh_ok space_ok form_ok hybrid form_name els find rname st f All = Some (st', pack rs) /\
    Forall2 (same form_name els find rname h) os rs /\ Forall (on_mesh (b_id bm)) rs /\ Forall (on_space (b_id bs)) rs.
Proof. intros until st. exact (warm_ok show mesh_ok space_ok form_ok hybrid form_name els find rname h os dm ds bm bs st). Qed.
Print Assumptions C65_warm.
(** parameters with the same text: the second mesh is the first *)
Theorem C65_text_refuted : forall show mesh_ok space_ok form_ok hybrid form_name els find rname st l l',
  st_mesh st = None -> is_mesh (st_heap st l) -> mesh_ok (st_heap st l) = true -> l <> l' -> show (st_heap st l) = show (st_heap st l') ->
  exists f st' b, save_list [Mesh l; Mesh l'] = Some f /\
    read show mesh_ok space_ok form_ok hybrid form_name els find rname st f All = Some (st', Objects [RMesh b; RMesh b]) /\ b_par b = st_heap st l.
Proof. exact confused. Qed.
Print Assumptions C65_text_refuted.
(** a mesh, another mesh and the first again: the first and the third are not one object any more *)
Theorem C65_identity_refuted : forall show mesh_ok space_ok form_ok hybrid form_name els find rname st l1 l2 l3,
  st_mesh st = None -> is_mesh (st_heap st l1) -> is_mesh (st_heap st l2) -> faithful show -> mesh_ok (st_heap st l1) = true -> mesh_ok (st_heap st l2) = true ->
  NoDup [l1; l2; l3] -> st_heap st l1 <> st_heap st l2 -> st_heap st l3 = st_heap st l1 ->
  exists f st' b1 b2 b3, save_list [Mesh l1; Mesh l2; Mesh l3] = Some f /\
    read show mesh_ok space_ok form_ok hybrid form_name els find rname st f All = Some (st', Objects [RMesh b1; RMesh b2; RMesh b3]) /\
    b_par b1 = b_par b3 /\ b_id b1 <> b_id b3.
Proof. exact doubled. Qed.
Print Assumptions C65_identity_refuted.
(** edge 1-forms and local trace forms are saved, and never read *)
Theorem C65_kind_refuted : forall show mesh_ok space_ok form_ok hybrid form_name els find rname st ri f c,
  In (f_ID f) ["1-e"; "0-lt"; "1-lt"; "2-lt"]%string -> f_rw f = Some c -> exists fl, save_one (Form f) = Some fl /\
    (read show mesh_ok space_ok form_ok hybrid form_name els find rname st fl ri = None \/ ri = Single 0 \/ ri = Each [0%Z]).
Proof. exact unreadable. Qed.
Print Assumptions C65_kind_refuted.
(** a dual made from its prime keeps its name, one made with a name does not *)
Theorem C65_dual_name : forall show mesh_ok space_ok form_ok hybrid form_name els find rname h st f, faithful show ->
  exists_in mesh_ok space_ok form_ok hybrid els find rname h (dual_of form_name h f) -> caches_ok show st -> (forall l, st_heap st l = h l) ->
  exists fl st' cls r name, save_one (dual_of form_name h f) = Some fl /\
    read show mesh_ok space_ok form_ok hybrid form_name els find rname st fl All = Some (st', Object (RDual cls name r)) /\ dual_of form_name h f = Dual name f.
Proof. exact dual_name. Qed.
Print Assumptions C65_dual_name.
Theorem C65_dual_name_refuted : forall show mesh_ok space_ok form_ok hybrid form_name els find rname h st f nm others, faithful show ->
  (forall ID kw s, lookup String.eqb "name"%string kw = Some (Text s) -> form_name ID kw = s) -> h (f_kw f) = prime_kwargs nm others ->
  exists_in mesh_ok space_ok form_ok hybrid els find rname h (Dual nm f) -> caches_ok show st -> (forall l, st_heap st l = h l) ->
  exists fl st' cls r name, save_one (Dual nm f) = Some fl /\
    read show mesh_ok space_ok form_ok hybrid form_name els find rname st fl All = Some (st', Object (RDual cls name r)) /\
    name = String.append "AD_PRIME_" nm /\ name <> nm.
Proof. exact dual_renamed. Qed.
Print Assumptions C65_dual_name_refuted.
(** a form with its dual; read after the mesh and the space; two meshes in turn; an edge form; the name of a dual *)
Example C65_refuted_ex : then_read (save_list [Form u0; Dual "AD_form" u0]) All = None /\ then_read (save_list [Mesh 0; Mesh 0]) All = None /\
  then_read (save_list [Mesh 0; Space 1; Form u0; Dual "AD_form" u0]) All =
    Some (true, [(Some 0, None, []); (None, Some 1, []); (Some 0, Some 1, [(0, [5%Q]); (1, [6%Q])]); (Some 0, Some 1, [(0, [5%Q]); (1, [6%Q])])]) /\
  then_read (save_list [Mesh 0; Mesh 8; Mesh 9]) All = Some (true, [(Some 0, None, []); (Some 1, None, []); (Some 2, None, [])]) /\
  then_read (save_one (Form (mkForm "1-e" 2 3 4 (Some (rw0 5 6))))) All = None /\
  then_read (save_list [Form u0]) All = then_read (save_one (Form u0)) All /\
  match save_one (Dual "u" (mkForm "3-f" 2 3 10 (Some (rw0 5 6)))) with
  | Some f => match read0 st0 f All with Some (_, Object (RDual cls name _)) => cls = "_3dCSCG_S3_ADF"%string /\ name = "AD_PRIME_u"%string | _ => False end
  | None => False
  end.
Proof. repeat split; vm_compute; reflexivity. Qed.

(** the cochain of a form saved from any cores and read on any others: every element has the cochain of the element at its place *)
Theorem C65_cochain : forall show mesh_ok space_ok form_ok hybrid form_name (els : nat -> dict -> list nat) find rname h f
    lays g sc g' sc' SIZE SIZE' rs rs' locs,
  faithful show -> is_mesh (h (f_mp f)) -> mesh_ok (h (f_mp f)) = true -> is_space (h (f_sp f)) -> space_ok (h (f_sp f)) = true ->
  ~ In "is_hybrid"%string (map fst (h (f_kw f))) -> form_ok (f_ID f) (h (f_kw f)) = true -> In (f_ID f) form_IDs -> f_kw f <> f_mp f -> f_kw f <> f_sp f ->
  let p := h (f_mp f) in (forall a b : nat, rname p a = rname p b -> a = b) ->
  Forall (fun lay => length lay = 3 /\ Forall (fun n => 1 <= n) lay) lays ->
  (forall r lay, nth_error lays r = Some lay -> lens_ok (prodl lay) (sc r) /\ lens_ok (prodl lay) (sc' r)) ->
  let num r := option_map fst (region_numbering g lays sc r) in let num' r := option_map fst (region_numbering g' lays sc' r) in
  let N := sum (map prodl lays) in partition SIZE N rs -> partition SIZE' N rs' -> map (map fst) locs = rs ->
  f_rw f = group (rname p) (find_element num lays) N locs -> find p = find_element num' lays ->
  (forall k l, nth_error rs' k = Some l -> els k p = l) ->
  exists fl locs', save_one (Form f) = Some fl /\ map (map fst) locs' = rs' /\
    (forall e e' r idx c, located num lays e r idx -> located num' lays e' r idx -> In (e, c) (concat locs) -> In (e', c) (concat locs')) /\
    forall k loc st, nth_error locs' k = Some loc -> caches_ok show st -> (forall l, st_heap st l = h l) ->
      exists st' r, read show mesh_ok space_ok form_ok hybrid form_name (els k) find rname st fl All = Some (st', Object (RForm r)) /\ r_local r = Some loc.
Proof. exact form_cochain. Qed.
Print Assumptions C65_cochain.
(** meshes of old files get the element distribution method 'debug' *)
Theorem C65_old_mesh : forall show mesh_ok space_ok form_ok hybrid form_name els find rname st l ID dom lay x, st_mesh st = None ->
  st_heap st l = [("type", Text "_3dCSCG_Mesh"); ("ID", ID); ("domain_parameters", dom); ("element_layout", lay); ("element_distribution_method", x)]%string ->
  mesh_ok (mesh_dict ID dom lay (Text "debug")) = true ->
  exists st' b, read show mesh_ok space_ok form_ok hybrid form_name els find rname st (One (mkEntry "_3dCSCG_Mesh" (PRef l))) All = Some (st', Object (RMesh b)) /\
    b_par b = mesh_dict ID dom lay (Text "debug").
Proof. exact old_mesh. Qed.
Print Assumptions C65_old_mesh.

(** forms of old files: cochains by element, and is_hybrid renamed *)
Theorem C65_old_form : forall show mesh_ok space_ok form_ok hybrid form_name els find rname h st ID mp sp kw c v,
  faithful show -> caches_ok show st -> (forall l, st_heap st l = h l) -> is_mesh (h mp) -> mesh_ok (h mp) = true -> is_space (h sp) -> space_ok (h sp) = true ->
  kw <> mp -> kw <> sp -> In ID form_IDs -> lookup String.eqb "is_hybrid"%string (h kw) = Some v -> (forall d, form_ok ID d = true) ->
  c <> [] -> (forall i, In i (els (h mp)) -> exists x, lookup Nat.eqb i c = Some x) ->
  exists cls st' r loc, class_of ID = Some cls /\
    read show mesh_ok space_ok form_ok hybrid form_name els find rname st (One (mkEntry cls (PForm "_3dCSCG_Form" ID mp sp kw (OldLocal c)))) All = Some (st', Object (RForm r)) /\
    r_ID r = ID /\ b_par (r_mesh r) = h mp /\ b_par (r_space r) = h sp /\
    r_local r = Some loc /\ map fst loc = els (h mp) /\ (forall i x, In (i, x) loc -> lookup Nat.eqb i c = Some x) /\
    forall k, lookup String.eqb k (r_kw r) = if String.eqb k "hybrid" then Some v else if String.eqb k "is_hybrid" then None else lookup String.eqb k (h kw).
Proof. exact old_form. Qed.
Print Assumptions C65_old_form.
Example C65_old_ex : let h := hset heap0 4 [("is_hybrid", Text "False"); ("name", Text "v")]%string in
  match read0 (mkSt h None None 0) (One (mkEntry "_3dCSCG_1Form" (PForm "_3dCSCG_Form" "1-f" 2 3 4 (OldLocal [(1, [qi 4]); (0, [qi 3]); (2, [])])))) All with
  | Some (_, Object (RForm r)) => r_kw r = [("name", Text "v"); ("hybrid", Text "False")]%string /\
      option_map (map (fun ec => (fst ec, map this (snd ec)))) (r_local r) = Some [(0, [3%Q]); (1, [4%Q])]
  | _ => False
  end.
Proof. vm_compute. split; reflexivity. Qed.

(** the file written is the file read exactly if the name has no dot, except that of a final '.mi' *)
Theorem C65_file_name : forall s t, save_name s = Some t -> (read_name s = t <-> exists b, ~ In "."%char b /\ (s = b \/ s = b ++ list_ascii_of_string ".mi")).
Proof. exact file_name. Qed.
Print Assumptions C65_file_name.
(** two names, one file *)
Theorem C65_file_name_refuted : exists s s' t, s <> s' /\ read_name s <> read_name s' /\ save_name s = Some t /\ save_name s' = Some t.
Proof. exists (list_ascii_of_string "run_0.1"), (list_ascii_of_string "run_0_1"), (list_ascii_of_string "run_0_1.mi"). repeat split; vm_compute; congruence. Qed.
Print Assumptions C65_file_name_refuted.
Example C65_file_ex : save_name (list_ascii_of_string "run.mi") = Some (list_ascii_of_string "run.mi") /\ save_name (list_ascii_of_string "run") = Some (list_ascii_of_string "run.mi") /\
  save_name (list_ascii_of_string "a/run") = None /\ save_name (list_ascii_of_string "a run") = None.
Proof. repeat split; vm_compute; reflexivity. Qed.
