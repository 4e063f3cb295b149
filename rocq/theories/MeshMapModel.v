(** Model of the region map, the element map and the periodic setting of a 3D mesh, and of finding the core of an element:
    objects/CSCG/_3d/mesh/domain/base.py, _3d/mesh/main.py, _3d/mesh/periodicSetting, _3d/mesh/do/find.py.
    Regions are the numbers 0 .. nrs - 1 in the order of regions.names; exceptions are None. *)
From Coq Require Import List Arith Bool.
From Verif Require Import Prelude SpaceModel MeshModel.
Import ListNotations.

(** * region map (domain/base.py:118-213) *)
(** names of regions and boundaries: numbers; the regions are those below nrs. The index of side (ax, end) is 2 ax + end *)
Definition side_index (s : side) : nat := 2 * fst s + (if snd s then 1 else 0).
(** {0: 1, 1: 0, 2: 3, 3: 2, 4: 5, 5: 4} *)
Definition opp_index (i : nat) : nat := nth i [1; 0; 3; 2; 5; 4] 0.
(** _side_corner_local_numbering_ (regions/region/inheriting/topology.py:67-79) *)
Definition side_corners (i : nat) : list nat :=
  nth i [[0; 2; 4; 6]; [1; 3; 5; 7]; [0; 1; 4; 5]; [2; 3; 6; 7]; [0; 1; 2; 3]; [4; 5; 6; 7]] [].
(** ___PRIVATE_found_side_corner_global_numbering___ (lines 215-232): [corner r c] is the global number of corner c of region r *)
Definition corners_of (corner : nat -> nat -> nat) (r i : nat) : list nat := map (corner r) (side_corners i).
(** lines 136-149: the regions attached to side i of region r *)
Definition attached_regions (corner : nat -> nat -> nat) (nrs r i : nat) : list nat :=
  flat_map (fun r' => if r' =? r then []
    else flat_map (fun ii => if list_eq_dec Nat.eq_dec (corners_of corner r i) (corners_of corner r' ii) then [r'] else []) (seq 0 6)) (seq 0 nrs).
(** an entry _rm_[rn][i]: a list, or (lines 182) the single name *)
Inductive slot := Names (l : list nat) | Name (n : nat).
Definition rmap := nat -> nat -> slot.
Definition set_slot (m : rmap) (r i : nat) (v : slot) : rmap := fun r' i' => if (r' =? r) && (i' =? i) then v else m r' i'.
(** lines 151-155: [boundaries] lists the boundaries with their region sides, in the order of _boundary_names_;
    None: a region that does not exist (KeyError) *)
Definition add_boundary (nrs : nat) (m : option rmap) (brs : nat * (nat * nat)) : option rmap :=
  let '(b, (r, i)) := brs in
  match m with
  | Some m => if r <? nrs then match m r i with Names l => Some (set_slot m r i (Names (l ++ [b]))) | Name _ => None end else None
  | None => None
  end.
Definition mem (x : nat) (l : list nat) : bool := existsb (Nat.eqb x) l.
(** lines 160-195: one side; a pair (region, boundary) is a crack, both sides become the boundary. A region that has been
    done is a tuple, assigning to it would raise a TypeError *)
Definition check_side (nrs : nat) (bnames : list nat) (st : option rmap) (ri : nat * nat) : option rmap :=
  let '(r, i) := ri in
  let isr n := n <? nrs in
  let isb n := mem n bnames in
  let finish (m : rmap) :=
    match m r i with
    | Names (n :: _) => if isb n then if isr n then None else Some (set_slot m r i (Name n))
                        else if isr n then Some (set_slot m r i (Name n)) else None
    | _ => None
    end in
  match st with
  | None => None
  | Some m =>
      match m r i with
      | Names [_] => finish m
      | Names [x; y] =>
          let rb := if isr x then if isb y then Some (x, y) else None
                    else if isb x then if isr y then Some (y, x) else None else None in
          match rb with
          | Some (r', b) =>
              match m r' (opp_index i) with
              | Names l => if (length l =? 2) && mem r l && mem b l then
                             if r' <? r then None
                             else finish (set_slot (set_slot m r i (Names [b])) r' (opp_index i) (Names [b]))
                           else None
              | Name _ => None
              end
          | None => None
          end
      | _ => None
      end
  end.
Definition name_of (s : slot) : option nat := match s with Name n => Some n | Names _ => None end.
(** _rm_[r].index(rn) for a done region *)
Definition index_of (m : rmap) (r rn : nat) : option nat :=
  find (fun i => match m r i with Name n => n =? rn | Names _ => false end) (seq 0 6).
(** lines 197-210: {i, index} in ({0, 1}, {2, 3}, {4, 5}) *)
Definition paired (m : rmap) (bnames : list nat) (ri : nat * nat) : bool :=
  match m (fst ri) (snd ri) with
  | Name n => if mem n bnames then true
              else match index_of m n (fst ri) with Some j => j =? opp_index (snd ri) | None => false end
  | Names _ => false
  end.
Definition all_sides (nrs : nat) : list (nat * nat) := flat_map (fun r => map (pair r) (seq 0 6)) (seq 0 nrs).
(** ___PRIVATE_generate_region_map___ (lines 118-213) *)
Definition region_map (corner : nat -> nat -> nat) (nrs : nat) (bnames : list nat) (bsides : list (nat * (nat * nat))) : option rmap :=
  let m0 : rmap := fun r i => Names (attached_regions corner nrs r i) in
  match fold_left (check_side nrs bnames) (all_sides nrs) (fold_left (add_boundary nrs) bsides (Some m0)) with
  | Some m => if forallb (paired m bnames) (all_sides nrs) then Some m else None
  | None => None
  end.

(** * element map (_3d/mesh/main.py:825-964, 976-1012) *)
(** what is beside an element: an element or a boundary *)
Inductive beside := El (e : nat) | Bd (b : nat).
(** all indices in the order 'C' *)
Fixpoint idxC (s : list nat) : list (list nat) :=
  match s with
  | [] => [[]]
  | n :: s' => flat_map (fun i => map (cons i) (idxC s')) (seq 0 n)
  end.
Section Map.
  (** [num r]: _element_global_numbering_[r], None: not on this core (KeyError); [lays]: the layouts; [rm]: the region map *)
  Context (num : nat -> option (arr nat)) (lays : list (list nat)) (rm : nat -> nat -> option nat) (bnames : list nat).
  (** ___PRIVATE_do_find_region_name_and_local_indices_of_element___ (lines 1078-1111), region_name_of_element (do/find.py:14-33):
      _num_elements_accumulation_ has the keys sum of the numbers of elements of the regions up to r *)
  Definition region_of (e : nat) : option nat :=
    find (fun r => e <? sum (map prodl (firstn (S r) lays))) (seq 0 (length lays)).
  Definition find_element (e : nat) : option (nat * list nat) :=
    match region_of e with
    | Some r => match num r with
                | Some a => option_map (pair r) (find (fun i => at_ a i =? e) (idxC (shp a)))
                | None => None
                end
    | None => None
    end.
  (** ___PRIVATE_fetch_side_element___ (lines 825-943), written once for the side (ax, end) of 'NSWEBF' *)
  Definition fetch_side (r : nat) (idx : list nat) (s : side) : option beside :=
    let ax := fst s in
    let at_end := if snd s then nth ax idx 0 + 1 =? nth ax (nth r lays []) 0 else nth ax idx 0 =? 0 in
    if at_end then
      match rm r (side_index s) with
      | Some n =>
          if mem n bnames then Some (Bd n)
          else match num n with
               | Some a => option_map El (get a (upd idx ax (fun _ => if snd s then 0 else nth ax (shp a) 0 - 1)))
               | None => None
               end
      | None => None
      end
    else match num r with
         | Some a => option_map El (get a (upd idx ax (fun x => if snd s then x + 1 else x - 1)))
         | None => None
         end.
  Definition fetch (e : nat) : option (list beside) :=
    match find_element e with
    | Some (r, idx) => all_some (map (fetch_side r idx) NSWEBF)
    | None => None
    end.
  (** ___PRIVATE_generate_element_map___ (lines 945-964) for the elements [els] of a core; ___involved_regions___ (never
      used, see the findings) is left out *)
  Definition emap := list (nat * list beside).
  Definition generate (els : list nat) : option emap :=
    all_some (map (fun e => option_map (pair e) (fetch e)) els).
End Map.
(** base/mesh/base.py:508-531: the regions whose numbering a core has *)
Definition useful (lays : list (list nat)) (rm : nat -> nat -> option nat) (periodic : list nat) (els : list nat) (r : nat) : bool :=
  existsb (fun e => match region_of lays e with
                    | Some r' => (r =? r') || existsb (fun i => match rm r' i with Some n => n =? r | None => false end) (seq 0 6)
                    | None => false
                    end) els
  || mem r periodic.
Definition core_num (num : nat -> option (arr nat)) (use : nat -> bool) (r : nat) : option (arr nat) := if use r then num r else None.

(** ** periodic boundaries (periodicSetting/periodic_boundary_pairs/regular/region_side_pair.py) *)
Definition opp (s : side) : side := (fst s, negb (snd s)).
Definition side_eqb (s t : side) : bool := (fst s =? fst t) && Bool.eqb (snd s) (snd t).
(** a pair of element sides: first element, its side, second side, second element *)
Definition epair : Type := nat * side * side * nat.
(** ESN2[i] for a position past the end is an IndexError *)
Fixpoint match_up (s1 s2 : side) (l1 l2 : list nat) : option (list epair) :=
  match l1, l2 with
  | [], _ => Some []
  | x :: l1', y :: l2' =>
      option_map (cons (if x <? y then (x, s1, s2, y) else (y, s2, s1, x))) (match_up s1 s2 l1' l2')
  | _ :: _, [] => None
  end.
(** correspondence_of_element_sides (lines 27-82) with the checks of __init__ (lines 6-22) for the region sides (r1, s1), (r2, s2) *)
Definition side_pairs (num : nat -> option (arr nat)) (nrs : nat) (p : (nat * side) * (nat * side)) : option (list epair) :=
  let '((r1, s1), (r2, s2)) := p in
  if (r1 <? nrs) && (r2 <? nrs) && side_eqb s2 (opp s1) then
    match num r1, num r2 with
    | Some a1, Some a2 =>
        match ravel a1 (side_sel 3 s1), ravel a2 (side_sel 3 s2) with
        | Some l1, Some l2 => match_up s1 s2 l1 l2
        | _, _ => None
        end
    | _, _ => None
    end
  else None.
(** periodic_boundary_requirement_checker (domain/inputs/base.py:131-149): no boundary in two pairs, nor paired with itself *)
Fixpoint distinct (l : list nat) : bool :=
  match l with [] => true | x :: l' => negb (mem x l') && distinct l' end.
(** the pairs of region sides of the pairs of boundaries (periodic_boundary_pairs/regular/main.py:19-37); [bsides] as in region_map *)
Definition sides_of (bsides : list (nat * (nat * nat))) (b : nat) : list (nat * nat) :=
  map snd (filter (fun x => fst x =? b) bsides).
Definition side_of (i : nat) : side := (i / 2, Nat.odd i).
Definition boundary_pairs (bsides : list (nat * (nat * nat))) (bps : list (nat * nat)) : option (list ((nat * side) * (nat * side))) :=
  if distinct (flat_map (fun bb => [fst bb; snd bb]) bps) then
    concat_some (map (fun bb =>
      let l1 := sides_of bsides (fst bb) in let l2 := sides_of bsides (snd bb) in
      if length l1 =? length l2
      then Some (map (fun p => ((fst (fst p), side_of (snd (fst p))), (fst (snd p), side_of (snd (snd p))))) (combine l1 l2))
      else None) bps)
  else None.
(** ___element_map___[e][side] = v if e is in the map *)
Definition put (m : emap) (e : nat) (s : side) (v : beside) : emap :=
  map (fun er => if fst er =? e then (fst er, update (snd er) (side_index s) v) else er) m.
(** ___PRIVATE_modify_elements_map_wr2_periodic_setting___ (lines 976-1012) *)
Definition periodic_one (m : emap) (p : epair) : emap :=
  let '(e1, s1, s2, e2) := p in put (put m e1 s1 (El e2)) e2 s2 (El e1).
Definition element_map (num : nat -> option (arr nat)) (lays : list (list nat)) (rm : nat -> nat -> option nat) (bnames : list nat)
    (pairs : list ((nat * side) * (nat * side))) (els : list nat) : option emap :=
  match generate num lays rm bnames els, concat_some (map (side_pairs num (length lays)) pairs) with
  | Some m, Some ps => Some (fold_left periodic_one ps m)
  | _, _ => None
  end.
(** a core: only the numberings it needs *)
Definition core_map (num : nat -> option (arr nat)) (lays : list (list nat)) (rm : nat -> nat -> option nat) (bnames : list nat)
    (pairs : list ((nat * side) * (nat * side))) (els : list nat) : option emap :=
  let periodic := flat_map (fun p => [fst (fst p); fst (snd p)]) pairs in
  element_map (core_num num (useful lays rm periodic els)) lays rm bnames pairs els.

(** * slave_of_element (_3d/mesh/do/find.py:60-104) *)
(** i in range(b, b + n) for the range of core c *)
Definition owns (d : list nat) (c i : nat) : bool := (sum (firstn c d) <=? i) && (i <? sum (firstn (S c) d)).
(** i > max(range), i < min(range) of a range that is not empty *)
Definition above (d : list nat) (c i : nat) : bool := sum (firstn (S c) d) <=? i.
Definition below (d : list nat) (c i : nat) : bool := i <? sum (firstn c d).
Fixpoint halve (fuel : nat) (d : list nat) (i m0 m1 m2 : nat) : option (nat * nat * nat) :=
  match fuel with
  | 0 => None
  | S fuel' =>
      if negb (owns d m1 i) && (2 <? m1 - m0) && (2 <? m2 - m1) then
        if nth m1 d 0 =? 0 then None (* max of an empty range *)
        else if above d m1 i then halve fuel' d i m1 ((m1 + m2) / 2) m2
        else if below d m1 i then halve fuel' d i m0 ((m0 + m1) / 2) m1
        else None
      else Some (m0, m1, m2)
  end.
Definition slave_of (d : list nat) (SIZE i : nat) : option nat :=
  if (SIZE <=? 6) || negb (forallb (fun n => 1 <=? n) d) then find (fun c => owns d c i) (seq 0 SIZE)
  else match halve SIZE d i 0 (SIZE / 2) SIZE with
       | Some (m0, m1, m2) =>
           if owns d m1 i then Some m1
           else if nth m1 d 0 =? 0 then None
           else if above d m1 i then find (fun c => owns d c i) (seq m1 (m2 - m1))
           else if below d m1 i then find (fun c => owns d c i) (seq m0 (m1 - m0))
           else None
       | None => None
       end.
