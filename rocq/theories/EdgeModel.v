(** Model of where the node and edge elements of a 3D mesh are, of the type counts of edge elements, and of the numbering of
    edge forms: objects/CSCG/_3d/mesh/{node,edge}/elements/main.py, objects/CSCG/_3d/forms/edge/base/numbering/Naive.py. *)
From Coq Require Import List Arith Bool.
From Verif Require Import Prelude SpaceModel MeshModel MeshMapModel TraceModel NumModel.
Import ListNotations.

(** * locations: ___PRIVATE_generating_edge_locations___ (edge/elements/main.py:296-460), and
    ___PRIVATE_generating_node_elements___ (node/elements/main.py:162-330), the same steps with 8 for 4 *)
(** ind_2_loc: the letters of each place, as indices of NSWEBF *)
Definition edge_sides : list (list nat) := [[2; 4]; [3; 4]; [2; 5]; [3; 5]; [0; 4]; [1; 4]; [0; 5]; [1; 5]; [0; 2]; [1; 2]; [0; 3]; [1; 3]].
Definition node_sides : list (list nat) := [[0; 2; 4]; [1; 2; 4]; [0; 3; 4]; [1; 3; 4]; [0; 2; 5]; [1; 2; 5]; [0; 3; 5]; [1; 3; 5]].
(** str(i) + ind_2_loc[ind]: the pair (i, ind) *)
Definition ploc := (nat * nat)%type.
(** lines 299-307: the maps of all cores, with the trivial checks *)
Definition merge (acc : option (list (nat * list nat))) (mp : list (nat * list nat)) : option (list (nat * list nat)) :=
  match acc with
  | None => None
  | Some d => let d' := fold_left (fun d kv => dset Nat.eqb d (fst kv) (snd kv)) mp d in
              if length d' =? length d + length mp then Some d' else None
  end.
Definition gathered (gms : list (list (nat * list nat))) (N : nat) : option (list (nat * list nat)) :=
  match fold_left merge gms (Some []) with Some d => if length d =? N then Some d else None | None => None end.
(** lines 313-315: the places in the order they are visited, with the edge (node) there *)
Definition visited (mp : list (nat * list nat)) (N : nat) : option (list (ploc * nat)) :=
  concat_some (map (fun i => option_map (fun row => combine (map (pair i) (seq 0 (length row))) row) (dget Nat.eqb mp i)) (seq 0 N)).
(** lines 316-322: LOC_DICT and LOC_DICT_FULL; [lim] is 4 for edges and 8 for nodes *)
Definition locate_one (lim : nat) (st : list (nat * list ploc) * list (nat * list ploc)) (x : ploc * nat) :=
  let '(loc, full) := st in
  let l := match dget Nat.eqb loc (snd x) with Some l => l | None => [] end ++ [fst x] in
  if length l =? lim then (ddel Nat.eqb loc (snd x), dset Nat.eqb full (snd x) l) else (dset Nat.eqb loc (snd x) l, full).
(** line 324: LOC_DICT_FULL.update(LOC_DICT) *)
Definition located_all (lim : nat) (xs : list (ploc * nat)) : list (nat * list ploc) :=
  let '(loc, full) := fold_left (locate_one lim) xs ([], []) in fold_left (fun d kv => dset Nat.eqb d (fst kv) (snd kv)) loc full.
(** lines 330-338: what is sent to a core; [els] its elements *)
Definition local_places (full : list (nat * list ploc)) (mp : list (nat * list nat)) (els : list nat) : option (list (nat * list ploc)) :=
  fold_left (fun acc i =>
    match dget Nat.eqb mp i with
    | None => None
    | Some row => fold_left (fun acc t => match acc with
        | None => None
        | Some d => match dget Nat.eqb d t with
                    | Some _ => Some d
                    | None => match dget Nat.eqb full t with Some l => Some (dset Nat.eqb d t l) | None => None end
                    end
        end) row acc
    end) els (Some []).
(** append what is not yet there *)
Definition add_new (l : list nat) (b : nat) : list nat := if mem b l then l else l ++ [b].
(** lines 357-370, LOCAL_EDGES_BNS[edge]: the boundaries beside the sides at the places in elements of this core ([mm] its element map).
    A missing key is an empty list here *)
Definition bns (sides : list (list nat)) (mm : emap) (l : list ploc) : list nat :=
  fold_left add_new (flat_map (fun q => match dget Nat.eqb mm (fst q) with
    | Some row => flat_map (fun f => match nth_error row f with Some (Bd b) => [b] | _ => [] end) (nth (snd q) sides [])
    | None => []
    end) l) [].
(** lines 376-404: round i: core i asks all others for boundary names; the lists of names only grow in the own round, so that the
    answers are those of the beginning. [own]: what core i found itself; [others]: LOCAL_EDGES_BNS of the other cores, for this edge *)
Definition ask (own : list nat) (others : list (list nat)) : list nat :=
  fold_left add_new (flat_map (fun o => filter (fun b => negb (mem b own)) o) others) own.
(** lines 414-433: a core's record of an edge: its places (then the names of boundaries), shared_by_elements, on_mesh_boundaries *)
Record prec := mkPrec { places : list ploc; shared : list nat; onb : list nat }.
Definition core_locations (sides : list (list nat)) (cores : list (emap * list (nat * list ploc))) (i : nat) (c : emap * list (nat * list ploc)) : list (nat * prec) :=
  map (fun tl =>
    let others := flat_map (fun jc => if fst jc =? i then [] else
                    match dget Nat.eqb (snd (snd jc)) (fst tl) with Some l => [bns sides (fst (snd jc)) l] | None => [] end) (combine (seq 0 (length cores)) cores) in
    (fst tl, mkPrec (snd tl) (fold_left add_new (map fst (snd tl)) []) (ask (bns sides (fst c) (snd tl)) others))) (snd c).
(** all cores: [ms] their element maps (the keys are the elements of the core), [gms] their maps of edge (node) elements *)
Definition locations (lim : nat) (sides : list (list nat)) (ms : list emap) (gms : list (list (nat * list nat))) : option (list (list (nat * prec))) :=
  let N := length (concat ms) in
  match gathered gms N with
  | None => None
  | Some mp =>
      match visited mp N with
      | None => None
      | Some xs =>
          match all_some (map (fun mm => option_map (pair mm) (local_places (located_all lim xs) mp (map fst mm))) ms) with
          | Some cores => Some (map (fun ic => core_locations sides cores (fst ic) (snd ic)) (combine (seq 0 (length cores)) cores))
          | None => None
          end
      end
  end.

(** * type counts: ___PRIVATE_find_type_and_amount_numbered_before___ (edge/elements/main.py:216-279) *)
(** direction (element/main.py:36-57): from the first place; 0 is NS, 1 WE, 2 BF; the places are in groups of four *)
Definition direction (r : prec) : option nat := match places r with q :: _ => Some (snd q / 4) | [] => None end.
(** lines 238-262 *)
Definition ecount_one (G : nat) (es : list (nat * prec)) (st : option (list (nat * (nat * nat * nat)) * list (nat * (nat * nat * nat)))) (i : nat) :=
  match st with
  | None => None
  | Some (po, ta) =>
      let po := if i =? 0 then dset Nat.eqb po 0 (0, 0, 0) else po in
      match (match dget Nat.eqb es i with Some r => direction r | None => None end), dget Nat.eqb po i with
      | Some d, Some c =>
          let c' := bump (2 * d) c in
          match (match dget Nat.eqb po (i + 1) with
                 | Some c'' => if cnt_eqb c' c'' then Some po else None
                 | None => if i + 1 =? G then if TraceModel.total c' =? G then Some po else None else Some (dset Nat.eqb po (i + 1) c')
                 end) with
          | Some po' => Some (po', ta ++ [(i, c)])
          | None => None
          end
      | _, _ => None
      end
  end.
(** lines 269-283: the checks after the loop *)
Definition echeck (es : list (nat * prec)) (ta : list (nat * (nat * nat * nat))) : bool :=
  forallb (fun ic => (TraceModel.total (snd ic) =? fst ic) &&
    (if 0 <? fst ic then
       match dget Nat.eqb ta (fst ic - 1) with
       | Some c => match (match dget Nat.eqb es (fst ic - 1) with Some r => direction r | None => None end) with
                   | Some d => cnt_eqb (snd ic) (bump (2 * d) c)
                   | None => false
                   end
       | None => true
       end
     else true)) ta.
(** a core after the other; POOL is handed on *)
Definition ecount_core (G : nat) (st : option (list (nat * (nat * nat * nat)) * list (list (nat * (nat * nat * nat))))) (es : list (nat * prec)) :=
  match st with
  | None => None
  | Some (po, out) =>
      match fold_left (ecount_one G es) (sorted (map fst es)) (Some (po, [])) with
      | Some (po', ta) => if echeck es ta then Some (po', out ++ [ta]) else None
      | None => None
      end
  end.
Definition edge_amounts (G : nat) (ess : list (list (nat * prec))) : option (list (list (nat * (nat * nat * nat)))) :=
  option_map snd (fold_left (ecount_core G) ess (Some ([], []))).

(** * edge forms (forms/edge/base/numbering/Naive.py:58-79, 114-135) *)
(** [D]: the number of dofs on an edge of each direction: p + 1 for 0-edge forms, p for 1-edge forms. GM_EEW, and local_num_dofs *)
Definition gm_eew (D : nat -> nat) (es : list (nat * prec)) (ta : list (nat * (nat * nat * nat))) : option (list (nat * list nat)) :=
  all_some (map (fun i => match (match dget Nat.eqb es i with Some r => direction r | None => None end), dget Nat.eqb ta i with
                          | Some d, Some c => Some (i, seq (start_num D c) (D d))
                          | _, _ => None
                          end) (sorted (map fst es))).
Definition eew_num (eew : list (nat * list nat)) : nat := sum (map (fun iv => length (snd iv)) eew).
(** the gathering matrix: the ranges of the twelve edges one after the other *)
Definition edge_gathering (D : nat -> nat) (es : list (nat * prec)) (ta : list (nat * (nat * nat * nat))) (mp : list (nat * list nat)) : option (list (nat * list nat) * nat) :=
  match gm_eew D es ta with
  | Some eew => option_map (fun gm => (gm, eew_num eew)) (gm_trace eew mp)
  | None => None
  end.
Definition D0 (p : list nat) (d : nat) : nat := nth d p 0 + 1.
Definition D1 (p : list nat) (d : nat) : nat := nth d p 0.
(** all cores; the outcome: the gathering matrices and the numbers of dofs of the cores *)
Definition edge_numbering (D : nat -> nat) (ms : list emap) : option (list (list (nat * list nat) * nat)) :=
  match edge_elements ms with
  | None => None
  | Some (gms, G) =>
      match locations 4 edge_sides ms gms with
      | None => None
      | Some ess =>
          match edge_amounts G ess with
          | None => None
          | Some tas => all_some (map (fun x => let '(es, (ta, mp)) := x in edge_gathering D es ta mp) (combine ess (combine tas gms)))
          end
      end
  end.
