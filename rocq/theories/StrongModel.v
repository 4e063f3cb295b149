(** Model of the strong boundary conditions: the element sides of the boundaries (objects/CSCG/_3d/mesh/boundaries/main.py:45-95), the
    boundary conditions of a form (objects/CSCG/base/forms/base/BC/main.py), their local interpretation with its cache
    (BC/interpret/local.py), the customizations made of it (tools/elementwiseCache/dataStructures/objects/sparseMatrix/customize.py:285-436,
    columnVector/customize.py:121-228) and apply_strong_BC (tools/miLinearAlgebra/linearSystem/customize.py:16-74).
    'local' is the only interpretation the code has (any other raises). Exceptions are None. *)
From Coq Require Import List Arith Bool.
From Verif Require Import Prelude RingSum SpaceModel MeshModel MeshMapModel NumModel NhtModel AssembleModel GatherModel EwcModel AsmModel.
Import ListNotations.

(** an element side; in the code the text str(element) + letter *)
Definition part := (nat * (nat * bool))%type.

(** mesh/boundaries/main.py:57-73: the sides of the elements of one core beside boundary b, Res[b]; [] also where line 91 adds a list *)
Definition range_of_element_sides (m : emap) (b : nat) : list part :=
  flat_map (fun er => flat_map (fun sw => match snd sw with
                                          | Bd n => if n =? b then [(fst er, fst sw)] else []
                                          | El _ => []
                                          end) (combine NSWEBF (snd er))) m.
(** lines 57-86: the names met on any core; a name unknown to the domain raises *)
Definition row_names (row : list beside) : list nat := flat_map (fun w => match w with Bd n => [n] | El _ => [] end) row.
Definition boundary_names (bnames : list nat) (ms : list emap) : option (list nat) :=
  let all := flat_map (fun er => row_names (snd er)) (concat ms) in
  if forallb (fun n => mem n bnames) all then Some (nodup Nat.eq_dec all) else None.

(** BC/main.py:33-65, the setter of boundaries: 'all', or a list of names. [tuple] is the order python makes of a set.
    The list _involved_element_parts_ of every core *)
Inductive request := All | Those (bns : list nat).
Definition involved_parts (tuple : list nat -> list nat) (bnames : list nat) (ms : list emap) (q : request) : option (list (list part)) :=
  match boundary_names bnames ms with
  | None => None
  | Some names =>
      let bns := match q with All => tuple names | Those l => l end in
      if forallb (fun b => mem b names) bns
      then Some (map (fun m => flat_map (range_of_element_sides m) bns) ms)
      else None
  end.

(** [if e not in d: d[e] = list()] and [d[e].extend(l)] *)
Fixpoint extend {X} (d : list (nat * list X)) (e : nat) (l : list X) : list (nat * list X) :=
  match d with
  | [] => [(e, l)]
  | (e', l') :: d' => if e' =? e then (e', l' ++ l) :: d' else (e', l') :: extend d' e l
  end.
(** BC/interpret/local.py:39-54 on one core; [side_dofs] is local_dofs_on_element_side of the form *)
Definition parse_dofs (side_dofs : nat * bool -> option (list nat)) (iEP : list part) : option (list (nat * list nat)) :=
  fold_left (fun d ep => match d, side_dofs (snd ep) with Some d, Some l => Some (extend d (fst ep) l) | _, _ => None end) iEP (Some []).

(** * the cache of BC/interpret/local.py:10-13, 32-57, shared by all forms. An address is what id() returns *)
Section Cache.
  (** [sides f]: local_dofs_on_element_side of form f *)
  Variable sides : nat -> nat * bool -> option (list nat).
  Record cstate := mkCS {
    c_cache : option (nat * list (nat * list nat));            (** 'iEP_ID' and 'dofs'; None: 'iEP_ID' is -1 *)
    c_parts : nat -> option (nat * list part) }.               (** _involved_element_parts_ of form f: its address, the list *)
  Definition cstate0 : cstate := mkCS None (fun _ => None).
  (** setting the boundaries makes a list, the allocator gives it an address; deleting the form; f.BC.interpret.local *)
  Inductive cevent := SetBoundaries (f addr : nat) (iEP : list part) | Delete (f : nat) | Interpret (f : nat).
  Definition interpret_local (st : cstate) (f : nat) : option (list (nat * list nat)) * cstate :=
    match c_parts st f with
    | None => (None, st)
    | Some (addr, iEP) =>
        let miss := match parse_dofs (sides f) iEP with
                    | Some d => (Some d, mkCS (Some (addr, d)) (c_parts st))
                    | None => (None, st)
                    end in
        match c_cache st with
        | Some (a, d) => if a =? addr then (Some d, st) else miss
        | None => miss
        end
    end.
  Definition cstep (st : cstate) (ev : cevent) : cstate :=
    match ev with
    | SetBoundaries f addr iEP => mkCS (c_cache st) (fun g => if g =? f then Some (addr, iEP) else c_parts st g)
    | Delete f => mkCS (c_cache st) (fun g => if g =? f then None else c_parts st g)
    | Interpret f => snd (interpret_local st f)
    end.
  Definition crun (evs : list cevent) : cstate := fold_left cstep evs cstate0.
End Cache.
Arguments mkCS c_cache c_parts : assert.

Section Strong.
  Variable K : CRing.

  (** BC/interpret/local.py:59-92; f.discretize(target='BC') gives full local cochains, or those of sides. For trace forms
      (lines 94-117) it is the value of the trace element of the side: the second case with that value *)
  Inductive local_cochain :=
  | LocallyFull (c : list (nat * list K))
  | SideWise (c : nat -> option (nat * bool -> option (list K))).
  Definition take_values (c : list K) (dof : list nat) : option (list K) := all_some (map (nth_error c) dof).
  Definition parse_cochains (dofs : list (nat * list nat)) (iEP : list part) (lc : local_cochain) : option (list (nat * list K)) :=
    match lc with
    | LocallyFull c =>
        all_some (map (fun ed => match lookup Nat.eqb (fst ed) c with
                                 | Some ce => option_map (pair (fst ed)) (take_values ce (snd ed))
                                 | None => None
                                 end) dofs)
    | SideWise c =>
        fold_left (fun d ep => match d, c (fst ep), lookup Nat.eqb (fst ep) dofs with
                               | Some d, Some ce, Some (_ :: _) =>
                                   match ce (snd ep) with Some l => Some (extend d (fst ep) l) | None => None end
                               | _, _, _ => None
                               end) iEP (Some [])
    end.

  (** what interpret.local has on a core: dofs and cochains (None without BC.CF) *)
  Record itp := mkI { i_dofs : list (nat * list nat); i_cochains : option (list (nat * list K)) }.

  (** regular/matrix/main.py:26-47: global_shape[1] *)
  Definition gv_len (g : GMat) : nat := maxl (map (fun ev => length (snd ev)) (concat g)).
  (** chain_matrix/main.py:303-312: [___Pr_regular__local_dofs_ranges___[i].start]; None: IndexError *)
  Definition block_start (gms : list GMat) (i : nat) : option nat := nth_error (To_Be_Added 0 (map gv_len gms)) i.

  (** sparseMatrix/customize.py:285-345 on core r; the assertions on the mesh and on the lockers of the assembled matrix are left out *)
  Definition identify_core (I : nat) (rgms : list GMat) (i r : nat) (it : itp) (cus : list (nat * list (cusop K)))
    : option (list (nat * list (cusop K))) :=
    if i <? I then
      match i_dofs it with
      | [] => Some cus
      | LDF => match block_start rgms i with
               | None => None
               | Some start =>
                   if forallb (fun ed => mem (fst ed) (elements (nth 0 rgms []) r)) LDF
                   then Some (register_all K cus (map (fun ed => (fst ed, ilrs (map (fun d => d + start) (snd ed)))) LDF))
                   else None
               end
      end
    else None.
  (** customize.py:347-436 *)
  Definition off_diagonal_core (I J : nat) (rgms cgms : list GMat) (i j r : nat) (row col : itp) (cus : list (nat * list (cusop K)))
    : option (list (nat * list (cusop K))) :=
    if (i <? I) && (j <? J) && (length (i_dofs col) =? length (i_dofs row)) then
      match i_dofs row with
      | [] => Some cus
      | LDF => match block_start rgms i, block_start cgms j with
               | Some si, Some sj =>
                   if forallb (fun ed => mem (fst ed) (elements (nth 0 rgms []) r)) LDF
                   then match all_some (map (fun ed => option_map (fun c => (fst ed, ilrsac (map (fun d => d + si) (snd ed)) (map (fun d => d + sj) c)))
                                                                  (lookup Nat.eqb (fst ed) (i_dofs col))) LDF) with
                        | Some ops => Some (register_all K cus ops)
                        | None => None
                        end
                   else None
               | _, _ => None
               end
      end
    else None.
  (** columnVector/customize.py:121-177 *)
  Definition set_entries_core (I : nat) (gms : list GMat) (i : nat) (it : itp) (cochains : option (list (nat * list K)))
      (cus : list (nat * list (vcusop K))) : option (list (nat * list (vcusop K))) :=
    if i <? I then
      match block_start gms i with
      | None => None
      | Some start =>
          match all_some (map (fun ed => match cochains with
                                         | None => None
                                         | Some c => match lookup Nat.eqb (fst ed) c with
                                                     | Some vs => if length (snd ed) =? length vs
                                                                  then Some (fst ed, slest (map (fun d => d + start) (snd ed)) vs) else None
                                                     | None => None
                                                     end
                                         end) (i_dofs it)) with
          | Some ops => Some (vregister_all K cus ops)
          | None => None
          end
      end
    else None.
  (** columnVector/customize.py:179-228 *)
  Definition set_constant_core (I : nat) (gms : list GMat) (i : nat) (it : itp) (v : K) (cus : list (nat * list (vcusop K)))
    : option (list (nat * list (vcusop K))) :=
    if i <? I then
      match block_start gms i with
      | None => None
      | Some start => Some (vregister_all K cus (map (fun ed => (fst ed, slest (map (fun d => d + start) (snd ed)) (map (fun _ => v) (snd ed)))) (i_dofs it)))
      end
    else None.

  (** every core does the same; None if one of them raises *)
  Definition on_cores {X} (SIZE : nat) (f : nat -> option (list X)) : option (nat -> list X) :=
    option_map (fun l r => nth r l []) (all_some (map f (seq 0 SIZE))).
  (** miLinearAlgebra/linearSystem/customize.py:16-74; [I, J] is the block shape, [dof] and [coch] the interpretations on the cores *)
  Definition apply_strong_BC (SIZE I J : nat) (rgms cgms bgms : list GMat) (i j : nat) (dof : nat -> itp) (coch : option (nat -> itp))
      (Acus : cdict K) (bcus : vdict K) : option (cdict K * vdict K) :=
    match coch with
    | None =>
        if (i =? j) && (i <? I) && (j <? J) then
          match on_cores SIZE (fun r => identify_core I rgms i r (dof r) (Acus r)),
                on_cores SIZE (fun r => set_entries_core I bgms i (dof r) (i_cochains (dof r)) (bcus r)) with
          | Some A, Some b => Some (A, b)
          | _, _ => None
          end
        else None
    | Some c =>
        if negb (i =? j) && (i <? I) && (j <? J) then
          match on_cores SIZE (fun r => off_diagonal_core I J rgms cgms i j r (dof r) (c r) (Acus r)),
                on_cores SIZE (fun r => set_entries_core I bgms i (dof r) (i_cochains (c r)) (bcus r)) with
          | Some A, Some b => Some (A, b)
          | _, _ => None
          end
        else None
    end.
End Strong.
Arguments mkI {K}. Arguments i_dofs {K}. Arguments i_cochains {K}. Arguments LocallyFull {K}. Arguments SideWise {K}.
