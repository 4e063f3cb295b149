(** Model of saving and reading objects: root/save.py, root/read/main.py, root/read/helpers/chain.py, root/read/helpers/_3dCSCG/{mesh,space,form,ADF}.py,
    components/freeze/main.py (___PRIVATE_save___), objects/CSCG/base/forms/base/main.py:50-80 and objects/CSCG/base/ADF/base/main.py:42-70
    (parameters), objects/CSCG/_3d/master.py (what the parameters are), components/miscellaneous/checks/check_filename_mi.py.
    Dictionaries are mutable: they live at addresses of a heap, and a pickled file keeps which of them are the same (pickle writes a
    dictionary once and refers to it afterwards). 3d objects only; the helpers of the 2d objects are copies. Exceptions are None. *)
From Coq Require Import String Ascii List Arith ZArith QArith Qcanon Bool.
From Verif Require Import Prelude AssembleModel CochainModel.
Import ListNotations.
Local Open Scope string_scope.
Local Open Scope nat_scope.
Local Open Scope list_scope.

(** values that are not changed by reading: texts, and codes of all others (tuples, None, domain parameters) *)
Inductive atom := Text (s : string) | Other (n : nat).
Definition atom_eqb (a b : atom) : bool :=
  match a, b with Text s, Text t => String.eqb s t | Other m, Other n => m =? n | _, _ => false end.
(** a dictionary in order of insertion *)
Definition dict := list (string * atom).
Definition heap := nat -> dict.
Definition hset (h : heap) (l : nat) (d : dict) : heap := fun l' => if l' =? l then d else h l'.
Definition ddrop (k : string) (d : dict) : dict := filter (fun kv => negb (String.eqb k (fst kv))) d.
(** d.pop(k) *)
Definition pop (k : string) (d : dict) : option (atom * dict) := option_map (fun v => (v, ddrop k d)) (lookup String.eqb k d).
Definition pop_is (k v : string) (d : dict) : option dict :=
  match pop k d with Some (a, d') => if atom_eqb a (Text v) then Some d' else None | None => None end.

(** the parameters made by MeshGenerator (master.py:60-66) and SpaceInvoker (lines 160-165) *)
Definition mesh_dict (ID dom lay edm : atom) : dict :=
  [("type", Text "_3dCSCG_Mesh"); ("ID", ID); ("domain_parameters", dom); ("element_layout", lay); ("EDM", edm)]%string.
Definition space_dict (ID inputs ndim : atom) : dict :=
  [("type", Text "_3dCSCG_Space"); ("ID", ID); ("inputs", inputs); ("ndim", ndim)]%string.

(** * objects in memory, with the addresses of their dictionaries *)
Definition rwc := list (string * list Qc).
(** ___define_parameters___ of a form (master.py:199-203): copies of the parameters of mesh and space and the keyword arguments; [f_rw]: its
    cochain grouped by regions ([group] of CochainModel), None if it has no cochain *)
Record form := mkForm { f_ID : string; f_mp : nat; f_sp : nat; f_kw : nat; f_rw : option rwc }.
Inductive object := Mesh (l : nat) | Space (l : nat) | Form (f : form) | Dual (name : string) (prime : form).

(** FormCaller: names of the classes (forms/allocator.py, ADF/allocator.py) *)
Definition classes : list (string * string) :=
  [("3-f", "_3dCSCG_3Form"); ("2-f", "_3dCSCG_2Form"); ("1-f", "_3dCSCG_1Form"); ("0-f", "_3dCSCG_0Form");
   ("0-t", "_3dCSCG_0Trace"); ("1-t", "_3dCSCG_1Trace"); ("2-t", "_3dCSCG_2Trace"); ("0-e", "_3dCSCG_0Edge"); ("1-e", "_3dCSCG_1Edge");
   ("0-lt", "_3dCSCG_0LocalTrace"); ("1-lt", "_3dCSCG_1LocalTrace"); ("2-lt", "_3dCSCG_2LocalTrace")]%string.
Definition dual_classes : list (string * string) :=
  [("0-adf", "_3dCSCG_S0_ADF"); ("1-adf", "_3dCSCG_S1_ADF"); ("2-adf", "_3dCSCG_S2_ADF"); ("3-adf", "_3dCSCG_S3_ADF");
   ("0-adt", "_3dCSCG_T0_ADF"); ("1-adt", "_3dCSCG_T1_ADF"); ("2-adt", "_3dCSCG_T2_ADF")]%string.
(** helpers/ADF.py:17-32 *)
Definition dual_IDs : list (string * string) :=
  [("0-f", "0-adf"); ("1-f", "1-adf"); ("2-f", "2-adf"); ("3-f", "3-adf"); ("0-t", "0-adt"); ("1-t", "1-adt"); ("2-t", "2-adt")]%string.
Definition class_of (ID : string) : option string := lookup String.eqb ID classes.
Definition dual_class_of (ID : string) : option string :=
  match lookup String.eqb ID dual_IDs with Some d => lookup String.eqb d dual_classes | None => None end.

(** * save (root/save.py:13-44) *)
(** 'parameters' of an entry of the file: the dictionary of a mesh or space itself; for a form a new dictionary with the items of
    ___define_parameters___ and the cochain (forms/base/main.py:69-79; both kinds of cochain of helpers/form.py:21-27) *)
Inductive saved_cochain := OldLocal (c : lcoch) | RegionWise (c : rwc).
Inductive params := PRef (l : nat) | PForm (type ID : string) (mp sp kw : nat) (c : saved_cochain).
Record entry := mkEntry { e_obj : string; e_par : params }.
(** ___PRIVATE_saving_info___: None, a dictionary, or something else (not made by save) *)
Inductive info := NoInfo | Info (d : list (string * string)) | BadInfo.
Inductive file := One (e : entry) | Many (es : list entry) (infos : option (list info)).

(** ___PRIVATE_save___ without writing (freeze/main.py:35-39, ADF/base/main.py:53-62: a dual form saves the parameters of its prime).
    A form without cochain: "I have no local cochain!" *)
Definition form_params (f : form) : option params :=
  option_map (fun c => PForm "_3dCSCG_Form" (f_ID f) (f_mp f) (f_sp f) (f_kw f) (RegionWise c)) (f_rw f).
Definition save1 (o : object) : option entry :=
  match o with
  | Mesh l => Some (mkEntry "_3dCSCG_Mesh" (PRef l))
  | Space l => Some (mkEntry "_3dCSCG_PolynomialSpace" (PRef l))
  | Form f => match class_of (f_ID f), form_params f with Some c, Some p => Some (mkEntry c p) | _, _ => None end
  | Dual _ f => match dual_class_of (f_ID f), form_params f with Some c, Some p => Some (mkEntry c p) | _, _ => None end
  end.
(** only standard forms give a dictionary (forms/standard/base/main.py:149); str(self.mesh) is left out *)
Definition saving_info (o : object) : info :=
  match o with Form f => match class_of (f_ID f) with Some c => Info [("name", c)]%string | None => NoInfo end | _ => NoInfo end.
Definition save_list (os : list object) : option file := option_map (fun es => Many es (Some (map saving_info os))) (all_some (map save1 os)).
Definition save_one (o : object) : option file := option_map One (save1 o).

(** * read *)
(** a mesh or a space built while reading: a number for its identity, and its parameters *)
Record built := mkBuilt { b_id : nat; b_par : dict }.
Record rform := mkR { r_ID : string; r_mesh : built; r_space : built; r_kw : dict; r_local : option lcoch }.
Inductive robj := RNone | RMesh (m : built) | RSpace (s : built) | RForm (f : rform) | RDual (cls name : string) (f : rform).
(** [st_mesh], [st_space]: ___CACHE_3dCSCG_mesh___ and ___CACHE_3dCSCG_space___: nothing or [tag, object] *)
Record state := mkSt { st_heap : heap; st_mesh : option (string * built); st_space : option (string * built); st_next : nat }.
Definition forget_heap (st : state) (h : heap) : state := mkSt h (st_mesh st) (st_space st) (st_next st).

Section Read.
  (** str of a dictionary *)
  Variable show : dict -> string.
  (** do the generators accept these parameters; FormCaller the keyword arguments; is the form hybrid; its name *)
  Variables mesh_ok space_ok : dict -> bool.
  Variables form_ok hybrid : string -> dict -> bool.
  Variable form_name : string -> dict -> string.
  (** of a mesh with these parameters: the elements of this core, region and local indices of an element, names of the regions *)
  Variable els : dict -> list nat.
  Variable find : dict -> nat -> option (nat * list nat).
  Variable rname : dict -> nat -> string.

  Definition cached (c : option (string * built)) (tag : string) : option built :=
    match c with Some (t, b) => if String.eqb tag t then Some b else None | None => None end.

  (** helpers/mesh.py:6-44 *)
  Definition pop_mesh (d : dict) : option dict :=
    match pop_is "type" "_3dCSCG_Mesh" d with None => None | Some d =>
    match pop "ID" d with None => None | Some (ID, d) =>
    match pop "element_layout" d with None => None | Some (lay, d) =>
    match pop "domain_parameters" d with None => None | Some (dom, d) =>
    match (match pop "element_distribution_method" d with Some (_, d') => Some (Text "debug", d') | None => pop "EDM" d end) with None => None | Some (edm, d) =>
    match d with [] => Some (mesh_dict ID dom lay edm) | _ => None end end end end end end.
  Definition restore_mesh (st : state) (l : nat) : option (state * built) :=
    let tag := show (st_heap st l) in
    match cached (st_mesh st) tag with
    | Some b => Some (st, b)
    | None => match pop_mesh (st_heap st l) with
              | Some p => if mesh_ok p then let b := mkBuilt (st_next st) p in
                            Some (mkSt (hset (st_heap st) l []) (Some (tag, b)) (st_space st) (S (st_next st)), b)
                          else None
              | None => None
              end
    end.
  (** helpers/space.py:6-37 *)
  Definition pop_space (d : dict) : option dict :=
    match pop_is "type" "_3dCSCG_Space" d with None => None | Some d =>
    match pop "ID" d with None => None | Some (ID, d) =>
    match pop "inputs" d with None => None | Some (inputs, d) =>
    match pop "ndim" d with None => None | Some (ndim, d) =>
    match d with [] => Some (space_dict ID inputs ndim) | _ => None end end end end end.
  Definition restore_space (st : state) (l : nat) : option (state * built) :=
    let tag := show (st_heap st l) in
    match cached (st_space st) tag with
    | Some b => Some (st, b)
    | None => match pop_space (st_heap st l) with
              | Some p => if space_ok p then let b := mkBuilt (st_next st) p in
                            Some (mkSt (hset (st_heap st) l []) (st_mesh st) (Some (tag, b)) (S (st_next st)), b)
                          else None
              | None => None
              end
    end.
  (** helpers/form.py:6-46 *)
  Definition rename (d : dict) : dict :=
    match lookup String.eqb "is_hybrid"%string d with
    | Some v => ddrop "hybrid" (ddrop "is_hybrid" d) ++ [("hybrid"%string, v)]
    | None => d
    end.
  Definition give (p : dict) (c : saved_cochain) : option (option lcoch) :=
    match c with
    | OldLocal [] => Some None
    | OldLocal c => option_map Some (all_some (map (fun i => option_map (pair i) (lookup Nat.eqb i c)) (els p)))
    | RegionWise c => option_map Some (ungroup (rname p) (find p) (els p) c)
    end.
  Definition restore_form (st : state) (p : params) : option (state * rform) :=
    match p with
    | PRef _ => None
    | PForm t ID mp sp kw c =>
        if String.eqb t "_3dCSCG_Form" then
          let kwargs := rename (st_heap st kw) in
          match restore_space (forget_heap st (hset (st_heap st) kw kwargs)) sp with None => None | Some (st, space) =>
          match restore_mesh st mp with None => None | Some (st, mesh) =>
          match class_of ID, form_ok ID kwargs, give (b_par mesh) c with
          | Some _, true, Some loc => Some (st, mkR ID mesh space kwargs loc)
          | _, _, _ => None
          end end end
        else None
    end.
  (** helpers/ADF.py:7-40 and master.py:208-245 (a dual from its prime) *)
  Definition restore_dual (st : state) (p : params) : option (state * robj) :=
    match restore_form st p with
    | None => None
    | Some (st, f) => match dual_class_of (r_ID f) with
                      | Some cls => if hybrid (r_ID f) (r_kw f) then Some (st, RDual cls (String.append "AD_" (form_name (r_ID f) (r_kw f))) f) else None
                      | None => None
                      end
    end.
  (** read/main.py:80-135: by the name of the class *)
  Definition readable_forms : list string :=
    ["_3dCSCG_0Form"; "_3dCSCG_1Form"; "_3dCSCG_2Form"; "_3dCSCG_3Form"; "_3dCSCG_2Trace"; "_3dCSCG_1Trace"; "_3dCSCG_0Trace"; "_3dCSCG_0Edge"]%string.
  Definition readable_duals : list string :=
    ["_3dCSCG_S0_ADF"; "_3dCSCG_S1_ADF"; "_3dCSCG_S2_ADF"; "_3dCSCG_S3_ADF"; "_3dCSCG_T0_ADF"; "_3dCSCG_T1_ADF"; "_3dCSCG_T2_ADF"]%string.
  Definition smem (s : string) (l : list string) : bool := existsb (String.eqb s) l.
  Definition restore (st : state) (e : entry) : option (state * robj) :=
    if String.eqb (e_obj e) "_3dCSCG_Mesh" then
      match e_par e with PRef l => option_map (fun x => (fst x, RMesh (snd x))) (restore_mesh st l) | _ => None end
    else if String.eqb (e_obj e) "_3dCSCG_PolynomialSpace" then
      match e_par e with PRef l => option_map (fun x => (fst x, RSpace (snd x))) (restore_space st l) | _ => None end
    else if smem (e_obj e) readable_forms then option_map (fun x => (fst x, RForm (snd x))) (restore_form st (e_par e))
    else if smem (e_obj e) readable_duals then restore_dual st (e_par e)
    else None.

  (** lines 36-75: the objects of the file, and which of them are read; [Z]: an item of read_individuals, 0 and 1 (False and True) are allowed *)
  Inductive individuals := All | Single (z : Z) | Each (zs : list Z).
  Definition contents (f : file) : option (list entry) :=
    match f with
    | One e => Some [e]
    | Many es i => match i with
                   | Some infos => if forallb (fun i => match i with BadInfo => false | _ => true end) infos then Some es else None
                   | None => match es with [] => None | _ => Some es end
                   end
    end.
  Definition mask (ri : individuals) (LEN : nat) : option (list bool) :=
    let check zs := if (length zs =? LEN) && forallb (fun z => (z =? 0)%Z || (z =? 1)%Z) zs then Some (map (fun z => (z =? 1)%Z) zs) else None in
    match ri with All => Some (repeat true LEN) | Single z => check [z] | Each zs => check zs end.
  (** lines 77-145 *)
  Fixpoint read_loop (st : state) (todo : list (bool * entry)) : option (state * list robj) :=
    match todo with
    | [] => Some (st, [])
    | (b, e) :: todo =>
        match (if b : bool then restore st e else Some (st, RNone)) with
        | None => None
        | Some (st, o) => option_map (fun x => (fst x, o :: snd x)) (read_loop st todo)
        end
    end.
  (** the value returned: a tuple, or the object if it is one *)
  Inductive result := Objects (os : list robj) | Object (o : robj).
  Definition pack (os : list robj) : result := match os with [o] => Object o | _ => Objects os end.
  Definition read (st : state) (f : file) (ri : individuals) : option (state * result) :=
    match contents f with
    | None => None
    | Some es => match mask ri (length es) with
                 | None => None
                 | Some m => option_map (fun x => (fst x, pack (snd x))) (read_loop st (combine m es))
                 end
    end.
End Read.

(** * dual forms made by FormCaller (master.py:205-275); [nm]: the keyword argument name of the dual. From a prime: name 'AD_' + its name;
    from keyword arguments with a name: the prime gets 'PRIME_' + name *)
Definition dual_of (form_name : string -> dict -> string) (h : heap) (f : form) : object :=
  Dual (String.append "AD_" (form_name (f_ID f) (h (f_kw f)))) f.
Definition prime_kwargs (nm : string) (others : dict) : dict := ("name"%string, Text (String.append "PRIME_" nm)) :: others ++ [("hybrid"%string, Text "True")].

(** * names of files *)
Definition dot : ascii := "."%char.
Definition special : list ascii := list_ascii_of_string "@!#$%^&*()<>?/|}{~:".
Definition count_dots (s : list ascii) : nat := length (filter (Ascii.eqb dot) s).
(** s[-3:] *)
Definition tail3 (s : list ascii) : list ascii := skipn (length s - 3) s.
Definition mi : list ascii := list_ascii_of_string ".mi".
Definition leqb (s t : list ascii) : bool := if list_eq_dec ascii_dec s t then true else false.
Definition add_mi (s : list ascii) : list ascii := if leqb (tail3 s) mi then s else s ++ mi.
(** [special]: check_no_splcharacter (the backslash in its pattern escapes the bar). check_filename_mi: the name of the file written by save *)
Definition save_name (s : list ascii) : option (list ascii) :=
  if existsb (fun c => existsb (Ascii.eqb c) special) s then None
  else if negb (length s <=? 64) then None
  else let s := add_mi s in
    let s := if 1 <? count_dots s then let t := map (fun c => if Ascii.eqb c dot then "_"%char else c) s in firstn (length t - 3) t ++ mi else s in
    if (count_dots s =? 1) && leqb (tail3 s) mi && negb (existsb (Ascii.eqb " "%char) s) then Some s else None.
(** chain.py: the name of the file read *)
Definition read_name (s : list ascii) : list ascii := add_mi s.
