(** Model of tools/elementwiseCache/gathering/ (regular gathering matrices, chained gathering
    matrices, searches in them, and the cache of chained matrices).
    Numberings are naturals (numpy ints; a negative number is not modelled). Distributed objects
    are lists indexed by the rank. *)
From Coq Require Import List Arith ZArith Lia Bool.
From Coq Require String.
From Verif Require Import Prelude AssembleModel.
Import ListNotations.
Local Open Scope nat_scope.

(** tools/elementwiseCache/gathering/vector.py:16-61: [full_vector] of a gathering vector. *)
Definition GV := list nat.

(** regular/matrix/main.py:20-22 [_gvd_]: the dict element -> gathering vector of one core. *)
Definition LocalGM := list (nat * GV).

(** A gathering matrix over all cores, indexed by the rank. *)
Definition GMat := list LocalGM.

Definition gm_local (g : GMat) (r : nat) : LocalGM := nth r g [].
Definition elements (g : GMat) (r : nat) : list nat := map fst (gm_local g r).

(** regular/matrix/main.py:68-70 [gm[e]] on core r; None = KeyError. *)
Definition gv_of (g : GMat) (r e : nat) : option GV := lookup Nat.eqb e (gm_local g r).

(** regular/matrix/main.py:26-44: all gathering vectors have the same length, on every core and
    among the cores that have elements. None = AssertionError. *)
Definition Gathering_Matrix (g : GMat) : option GMat :=
  match map (fun kv => length (snd kv)) (concat g) with
  | [] => Some g
  | L :: Ls => if forallb (Nat.eqb L) Ls then Some g else None
  end.

(** regular/matrix/main.py:115-127 [global_num_dofs]: local maxima (np.max raises on an empty
    vector), allreduce MAX, assert >= 0 (some core has an element), + 1. *)
Definition global_num_dofs (g : GMat) : option nat :=
  let vs := map snd (concat g) in
  if existsb (fun v => match v with [] => true | _ => false end) vs then None
  else match vs with [] => None | _ => Some (S (maxl (concat vs))) end.

(** regular/matrix/main.py:103-112 [local_dofs] *)
Definition local_dofs (g : GMat) (r : nat) : list nat := concat (map snd (gm_local g r)).

(** regular/matrix/main.py:148-167 [local_range] of a core with elements: (min, max+1) *)
Definition minl (l : list nat) : nat := match l with [] => 0 | x :: l' => fold_right Nat.min x l' end.
Definition local_range (g : GMat) (r : nat) : option (nat * nat) :=
  match gm_local g r with
  | [] => None
  | _ => Some (minl (local_dofs g r), S (maxl (local_dofs g r)))
  end.

(** chain_matrix/main.py:61-69: every matrix has the elements of the first one, on this core. *)
Definition same_elements (gms : list GMat) (r : nat) : bool :=
  match gms with
  | [] => true
  | g0 :: rest =>
      forallb (fun g => (length (gm_local g r) =? length (gm_local g0 r)) &&
                        forallb (fun i => existsb (Nat.eqb i) (elements g r)) (elements g0 r)) rest
  end.

(** chain_matrix/main.py:71-78: [To_Be_Added] starts as [0] and gets last + num_dofs appended for
    every matrix but the last. *)
Fixpoint To_Be_Added (acc : nat) (ns : list nat) : list nat :=
  match ns with [] => [] | n :: ns' => acc :: To_Be_Added (acc + n) ns' end.

Definition enumerate {A} (l : list A) : list (nat * A) := combine (seq 0 (length l)) l.

Inductive chain_method := Silly | Sequent.

(** [self[e]] block by block, [F j d] being the chained number of dof d of matrix j. *)
Definition chained (F : nat -> nat -> nat) (gms : list GMat) (r e : nat) : option GV :=
  option_map (@concat nat)
    (all_some (map (fun jg => option_map (map (F (fst jg))) (gv_of (snd jg) r e)) (enumerate gms))).

(** chain_matrix/main.py:217-223 [__getitem__] for the silly method. *)
Definition silly_getitem (ns : list nat) (gms : list GMat) (r e : nat) : option GV :=
  match gms with
  | [g] => gv_of g r e
  | _ => chained (fun j d => d + nth j (To_Be_Added 0 ns) 0) gms r e
  end.

(** State of the renumbering relay, chain_matrix/main.py:96-123: [current_number], [filters],
    and the core's [cache] (lil matrices: 0 where nothing was written). *)
Record seqst := mkSeq { s_cur : nat; s_fil : nat -> nat; s_cache : nat -> nat -> nat }.

(** [cache[j][0, fv] = np.arange(current, current+len(fv))] *)
Fixpoint cache_write (c : nat -> nat -> nat) (j : nat) (fv : list nat) (current : nat) : nat -> nat -> nat :=
  match fv with
  | [] => c
  | d :: fv' => cache_write (fun j' d' => if (j' =? j) && (d' =? d) then current else c j' d') j fv' (S current)
  end.

(** chain_matrix/main.py:113-119: body of the double loop. *)
Definition seq_step (st : seqst) (jv : nat * GV) : seqst :=
  let (j, v) := jv in
  let fv := filter (fun d => s_fil st j <=? d) v in
  let amount := length fv in
  mkSeq (s_cur st + amount)
        (fun j' => if j' =? j then s_fil st j + amount else s_fil st j')
        (cache_write (s_cache st) j fv (s_cur st)).

(** chain_matrix/main.py:111-113: the visits [for i in self: for j, gm in enumerate(GMs)] of core r;
    None = KeyError. *)
Definition visits (gms : list GMat) (r : nat) : option (list (nat * GV)) :=
  match gms with
  | [] => None
  | g0 :: _ =>
      option_map (@concat _) (all_some (map (fun e =>
        all_some (map (fun jg => option_map (pair (fst jg)) (gv_of (snd jg) r e)) (enumerate gms)))
        (elements g0 r)))
  end.

(** chain_matrix/main.py:96-123: core after core, each with a fresh zero cache, passing on
    [current_number] and [filters]. Returns the caches, by rank. *)
Fixpoint relay (cores : list (list (nat * GV))) (cur : nat) (fil : nat -> nat)
  : list (nat -> nat -> nat) :=
  match cores with
  | [] => []
  | items :: cores' =>
      let st := fold_left seq_step items (mkSeq cur fil (fun _ _ => 0)) in
      s_cache st :: relay cores' (s_cur st) (s_fil st)
  end.

(** chain_matrix/main.py:127-137: the caches are summed in the master. *)
Definition merged (caches : list (nat -> nat -> nat)) (j d : nat) : nat :=
  sum (map (fun c => c j d) caches).

(** chain_matrix/main.py:144-169: what core r gets back: the merged cache at its local dofs. *)
Definition distributed (gms : list GMat) (caches : list (nat -> nat -> nat)) (r j d : nat) : nat :=
  if existsb (Nat.eqb d) (local_dofs (nth j gms []) r) then merged caches j d else 0.

(** chain_matrix/main.py:26-190, the checks of the constructor; returns the dof numbers of the
    matrices. SIZE is the number of cores. *)
Definition chain_check (SIZE : nat) (gms : list GMat) : option (list nat) :=
  match gms with
  | [] => None
  | _ => if forallb (same_elements gms) (seq 0 SIZE) then all_some (map global_num_dofs gms) else None
  end.

(** chain_matrix/main.py:26-190 and 211-234: [Chain_Gathering_Matrix(gms, chain_method)[e]] on
    core r. With a single matrix the method is always silly (87-91). *)
Definition CGM_getitem (SIZE : nat) (gms : list GMat) (m : chain_method) (r e : nat) : option GV :=
  match chain_check SIZE gms with
  | None => None
  | Some ns =>
      match gms, m with
      | [g], _ => silly_getitem ns gms r e
      | _, Silly => silly_getitem ns gms r e
      | _, Sequent =>
          match all_some (map (visits gms) (seq 0 SIZE)) with
          | None => None
          | Some cores => chained (distributed gms (relay cores 0 (fun _ => 0)) r) gms r e
          end
      end
  end.

(** chain_matrix/main.py:78: [_GLOBAL_num_dofs_ = To_Be_Added[-1] + GMs[-1].global_num_dofs] *)
Definition CGM_global_num_dofs (SIZE : nat) (gms : list GMat) : option nat :=
  option_map (fun ns => last (To_Be_Added 0 ns) 0 + last ns 0) (chain_check SIZE gms).

(** * searching *)

(** chain_matrix/do/find.py:74-97: which matrix may have dof m; [inl None] = return None early,
    [inl (Some w)] = where, [inr tt] = the loop ended with where = -1 (AssertionError line 100). *)
Fixpoint find_where (m : nat) (i : nat) (prev_max : option nat) (lrs : list (nat * nat)) : option nat + unit :=
  match lrs with
  | [] => inr tt
  | (MIN, MAX) :: rest =>
      match prev_max with
      | None =>
          if m <? MIN then inl None
          else if (MIN <=? m) && (m <? MAX) then inl (Some i)
          else find_where m (S i) (Some MAX) rest
      | Some pm =>
          if (pm <=? m) && (m <? MIN) then inl None
          else if (MIN <=? m) && (m <? MAX) then inl (Some i)
          else match rest with
               | [] => if MAX <=? m then inl None else inr tt
               | _ => find_where m (S i) (Some MAX) rest
               end
      end
  end.

(** chain_matrix/do/find.py:65-97 *)
Definition which_matrix (m : nat) (lrs : list (nat * nat)) : option nat + unit :=
  match lrs with
  | [(MIN, MAX)] => if (MIN <=? m) && (m <? MAX) then inl (Some 0) else inl None
  | _ => find_where m 0 None lrs
  end.

(** chain_matrix/do/find.py:105-121: the elements of the matrix having the dof, at most N. *)
Definition search (N : option nat) (m : nat) (g : LocalGM) : list nat :=
  let l := map fst (filter (fun kv => existsb (Nat.eqb m) (snd kv)) g) in
  match N with None => l | Some n => firstn n l end.

Inductive found (A : Type) := Raised | NotFound | Found (a : A).
Arguments Raised {A}. Arguments NotFound {A}. Arguments Found {A} a.

(** chain_matrix/main.py:278-296 [local_ranges] of core r (which has elements). *)
Definition local_ranges (ns : list nat) (gms : list GMat) (r : nat) : option (list (nat * nat)) :=
  all_some (map (fun jg => option_map (fun lr => (fst lr + nth (fst jg) (To_Be_Added 0 ns) 0,
                                                  snd lr + nth (fst jg) (To_Be_Added 0 ns) 0))
                             (local_range (snd jg) r)) (enumerate gms)).

(** chain_matrix/main.py:322-338 [GV_LENs] and 177-181 [_LOCAL_To_Be_Added_] *)
Definition GV_LENs (gms : list GMat) (r : nat) : option (list nat) :=
  match gms with
  | [] => None
  | g0 :: _ => match elements g0 r with
               | [] => None
               | e :: _ => all_some (map (fun g => option_map (@length nat) (gv_of g r e)) gms)
               end
  end.

(** chain_matrix/do/find.py:143-172 [elements_and_local_indices_of_dof(m, N)] for the silly method;
    the default N (4 or 8 by mesh type, lines 43-53) is the argument. *)
Definition CGM_find (SIZE : nat) (gms : list GMat) (r : nat) (N : option nat) (m : Z)
  : found (list nat * list nat) :=
  match chain_check SIZE gms, CGM_global_num_dofs SIZE gms with
  | Some ns, Some total =>
      if negb ((- Z.of_nat total <=? m)%Z && (m <? Z.of_nat total)%Z) then Raised
      else
        let m := Z.to_nat (if (m <? 0)%Z then m + Z.of_nat total else m)%Z in
        match N with
        | Some 0 => Raised
        | _ =>
          match elements (nth 0 gms []) r with
          | [] => NotFound
          | _ =>
            match local_ranges ns gms r, GV_LENs gms r with
            | Some lrs, Some lens =>
                match which_matrix m lrs with
                | inr _ => Raised
                | inl None => NotFound
                | inl (Some w) =>
                    let m' := m - nth w (To_Be_Added 0 ns) 0 in
                    let g := nth w gms [] in
                    match search N m' (gm_local g r) with
                    | [] => NotFound
                    | ELE =>
                        match all_some (map (fun e => match gv_of g r e with
                                 | Some v => option_map (fun i => i + nth w (To_Be_Added 0 lens) 0)
                                               (first_index (Nat.eqb m') v)
                                 | None => None end) ELE) with
                        | Some idx => Found (ELE, idx)
                        | None => Raised
                        end
                    end
                end
            | _, _ => Raised
            end
          end
        end
  | _, _ => Raised
  end.

(** regular/matrix/do/find.py:11-30 with vector.py:105-113 [index]: AssertionError unless the dof
    occurs exactly once in the vector. *)
Definition gv_index (v : GV) (d : nat) : option nat :=
  match filter (fun p => snd p =? d) (enumerate v) with
  | [p] => Some (fst p)
  | _ => None
  end.
Definition GM_find (g : GMat) (r i : nat) : found (list nat * list nat) :=
  let hits := filter (fun kv => existsb (Nat.eqb i) (snd kv)) (gm_local g r) in
  match all_some (map (fun kv => gv_index (snd kv) i) hits) with
  | None => Raised
  | Some [] => NotFound
  | Some idx => Found (map fst hits, idx)
  end.

(** * the cache of chained matrices, gathering/chain.py:12-64 *)
Section ChainCache.
  (** gathering matrix objects and their stamps (str(id(.))) *)
  Variable Obj : Type.
  Variable stamp : Obj -> String.string.

  (** a chained matrix object is identified by what it was built from *)
  Record cgm := mkCGM { built_from : list Obj; built_method : String.string }.

  (** gathering/chain.py:38 *)
  Definition cache_key (gms : list Obj) (method : String.string) : String.string :=
    String.append (String.concat String.EmptyString (map stamp gms)) method.

  (** gathering/chain.py:36-64: returns the CGM and the new cache; the cache lists are zipped. *)
  Definition chaining_call (cache : list (String.string * cgm)) (gms : list Obj) (method : String.string)
    : cgm * list (String.string * cgm) :=
    let k := cache_key gms method in
    match lookup String.eqb k cache with
    | Some c => (c, cache)
    | None =>
        let c := mkCGM gms method in
        let cache' := cache ++ [(k, c)] in
        (c, if 3 <? length cache' then skipn (length cache' - 3) cache' else cache')
    end.
End ChainCache.
