(** Model of local trace forms: their cochains, element by element and side by
    side, objects/CSCG/base/forms/localTrace/cochain/main.py and
    objects/CSCG/_3d/forms/localTrace/base/cochain/main.py, and their
    numbering, localTrace/base/numbering/{Naive,main,do/find}.py. Dicts and
    sides as in TewModel. *)
From Coq Require Import List Arith ZArith Bool.
From Verif Require Import Prelude RingSum AssembleModel TewModel.
Import ListNotations.

(** What is used of mesh and form: the local elements, num.basis_onside,
    num.basis and the dofs. *)
Record ltform := mklt {
  l_els : list nat;
  l_onside : list nat;
  l_basis : nat;
  l_dofs : dofs }.

Section Cochain.
  Context {K : CRing}.

  (** base cochain/main.py 23-26, whether.py 18: _local_, _local_ESW_, _full_. *)
  Record lstate := mkls {
    ls_local : option (dict (list K));
    ls_esw : option (dict (dict (list K)));
    ls_full : option bool }.
  Definition new_lstate : lstate := mkls None None None.
  Inductive loutcome := LDone (s : lstate) | LRaised (s : lstate).

  (** base cochain/main.py 155-174, the setter of local. *)
  Definition set_local_lt (m : ltform) (L : dict (list K)) (s : lstate) : loutcome :=
    let full := Some (length L =? length (l_els m)) in
    if forallb (fun kv => length (snd kv) =? l_basis m) L
    then LDone (mkls (Some L) None full)
    else LRaised (mkls (ls_local s) (ls_esw s) full).

  (** _3d cochain/main.py 28-46 and 48-52: one element. *)
  Definition esw_of (m : ltform) (v : list K) : option (dict (list K)) :=
    match l_dofs m with
    | Hybrid => all_some (map (fun a => option_map (pair a) (slice (l_onside m) v a)) (seq 0 6))
    | Gathered G => VectorDistributor nat K G v
    end.
  Definition local_2_esw (m : ltform) (L : dict (list K)) : option (dict (dict (list K))) :=
    all_some (map (fun ev => option_map (pair (fst ev)) (esw_of m (snd ev))) L).

  (** base cochain/main.py 178-194, the getter of local_ESW. *)
  Definition get_esw (m : ltform) (s : lstate) : loutcome * option (dict (dict (list K))) :=
    match ls_esw s, ls_local s with
    | None, Some L =>
        match local_2_esw m L with
        | Some T => (LDone (mkls (ls_local s) (Some T) (ls_full s)), Some T)
        | None => (LRaised s, None)
        end
    | t, _ => (LDone s, t)
    end.

  (** base cochain/main.py 204-217; a side that is none of the six is a
      KeyError. *)
  Definition esw_shape (m : ltform) (ie : nat * dict (list K)) : bool :=
    existsb (Nat.eqb (fst ie)) (l_els m) &&
    forallb (fun aw => match nth_error (l_onside m) (fst aw) with
                       | Some n => length (snd aw) =? n
                       | None => false
                       end) (snd ie).

  (** base cochain/main.py 239-258: one element; None is an exception. *)
  Definition join_sides (m : ltform) (E : dict (list K)) : option (list K) :=
    match all_some (map (fun a => at_key a E) (seq 0 6)) with
    | None => None
    | Some vs =>
        match (match l_dofs m with
               | Hybrid => Some (concat vs)
               | Gathered G => VectorAssembler nat Nat.eqb K G Replace (combine (seq 0 6) vs)
               end) with
        | Some v => if length v =? l_basis m then Some v else None
        | None => None
        end
    end.
  (** base cochain/main.py 232-258. *)
  Fixpoint esw_2_local (m : ltform) (T : dict (dict (list K))) : option (dict (list K)) :=
    match T with
    | [] => Some []
    | (e, E) :: T' =>
        if length E =? 6
        then match join_sides m E, esw_2_local m T' with
             | Some v, Some L => Some ((e, v) :: L)
             | _, _ => None
             end
        else esw_2_local m T'
    end.
  (** base cochain/main.py 196-260, the setter of local_ESW. *)
  Definition set_esw (m : ltform) (T : dict (dict (list K))) (s : lstate) : loutcome :=
    if forallb (esw_shape m) T
    then
      let full := Some (forallb (fun ie => length (snd ie) =? 6) T) in
      match esw_2_local m T with
      | Some L => LDone (mkls (Some L) (Some T) full)
      | None => LRaised (mkls (ls_local s) (Some T) full)
      end
    else LRaised s.

  (** _3d cochain/main.py 54-100. *)
  Definition on_element_side (m : ltform) (s : lstate) (e a : nat) : option (list K) :=
    match l_dofs m with
    | Hybrid =>
        match ls_local s with
        | Some L => match at_key e L with Some v => slice (l_onside m) v a | None => None end
        | None => None
        end
    | Gathered G =>
        match ls_esw s with
        | Some T => match at_key e T with Some E => at_key a E | None => None end
        | None =>
            match ls_local s with
            | Some L =>
                match at_key e L, at_key a G with
                | Some v, Some g => np_take v g
                | _, _ => None
                end
            | None => None
            end
        end
    end.

  (** whether.py 21-25: the conjunction over the cores; None: no cochain. *)
  Definition lt_full (ss : list lstate) : option bool :=
    match all_some (map (fun s => match ls_local s with Some _ => ls_full s | None => None end) ss) with
    | Some bs => Some (forallb (fun b => b) bs)
    | None => None
    end.

  (** base cochain/main.py 112-119, the setter of globe with a
      LocallyFullVector; Naive.py 41-42 gives the numbers. *)
  Definition lt_numbers (m : ltform) (e : nat) : list nat := seq (e * l_basis m) (l_basis m).
  Definition set_globe_full (m : ltform) (V : list K) (s : lstate) : loutcome :=
    match all_some (map (fun e => option_map (pair e) (all_some (map (nth_error V) (lt_numbers m e)))) (l_els m)) with
    | Some L => set_local_lt m L s
    | None => LRaised s
    end.
  (** base cochain/main.py 52-65, the getter of globe: the part of one core, by
      its entries in order; a later entry replaces an earlier one. *)
  Definition lt_globe (m : ltform) (s : lstate) : option (list (nat * K)) :=
    match ls_local s with
    | None => None
    | Some L =>
        option_map (@concat _)
          (all_some (map (fun e => match at_key e L with
                                   | Some v => if length v =? l_basis m then Some (combine (lt_numbers m e) v) else None
                                   | None => None
                                   end) (l_els m)))
    end.
End Cochain.
Arguments lstate : clear implicits.
Arguments loutcome : clear implicits.

(** ** numbering/do/find.py *)
(** What the cache keeps: [i0, i1] or arange(i0, i1). *)
Inductive span := Ends (i0 i1 : nat) | Arange (l : list nat).
Definition lcache := list (nat * span).
(** 36-55 and 115-133: indices of a side. *)
Definition side_ends (m : ltform) (a : nat) : option (nat * nat) :=
  match nth_error (l_onside m) 0, nth_error (l_onside m) 2, nth_error (l_onside m) 4 with
  | Some NS, Some WE, Some BF =>
      match a with
      | 0 => Some (0, NS)
      | 1 => Some (NS, 2 * NS)
      | 2 => Some (2 * NS, 2 * NS + WE)
      | 3 => Some (2 * NS + WE, 2 * NS + 2 * WE)
      | 4 => Some (2 * NS + 2 * WE, 2 * NS + 2 * WE + BF)
      | 5 => Some (2 * NS + 2 * WE + BF, 2 * NS + 2 * WE + 2 * BF)
      | _ => None
      end
  | _, _, _ => None
  end.
(** 20-64, local_dofs_on_element_side: the value and the cache afterwards. *)
Definition local_dofs_on_side (m : ltform) (a : nat) (c : lcache) : option span * lcache :=
  match l_dofs m with
  | Gathered G => (option_map (fun g => Arange (map Z.to_nat g)) (at_key a G), c)
  | Hybrid =>
      match at_key a c with
      | Some r => (Some r, c)
      | None =>
          match side_ends m a with
          | Some (i, j) => let r := Arange (seq i (j - i)) in (Some r, (a, r) :: c)
          | None => (None, c)
          end
      end
  end.
(** 66-140, dofs_on_element_side. [i0, i1 = cache] raises unless there are two. *)
Definition unpack (r : span) : option (nat * nat) :=
  match r with
  | Ends i j => Some (i, j)
  | Arange [i; j] => Some (i, j)
  | Arange _ => None
  end.
Definition dofs_on_side (m : ltform) (e a : nat) (c : lcache) : option (list nat) * lcache :=
  let gv := lt_numbers m e in
  match l_dofs m with
  | Gathered G =>
      (match at_key a G with
       | Some g => all_some (map (fun z => nth_error gv (Z.to_nat z)) g)
       | None => None
       end, c)
  | Hybrid =>
      match (match at_key a c with
             | Some r => Some (r, c)
             | None => match side_ends m a with Some (i, j) => Some (Ends i j, (a, Ends i j) :: c) | None => None end
             end) with
      | Some (r, c') =>
          (match unpack r with Some (i, j) => Some (firstn (j - i) (skipn i gv)) | None => None end, c')
      | None => (None, c)
      end
  end.
(** numbering/main.py 103-134, boundary_dofs of one boundary: the sides of the
    local elements on it. *)
Fixpoint boundary_dofs_lt (m : ltform) (es : list (nat * nat)) (c : lcache) : option (list nat) * lcache :=
  match es with
  | [] => (Some [], c)
  | (e, a) :: es' =>
      match dofs_on_side m e a c with
      | (Some d, c') =>
          match boundary_dofs_lt m es' c' with
          | (Some ds, c'') => (Some (d ++ ds), c'')
          | (None, c'') => (None, c'')
          end
      | (None, c') => (None, c')
      end
  end.
