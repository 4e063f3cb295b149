(** Model of the two forms of a trace cochain: element by element, and trace
    element by trace element, objects/CSCG/base/forms/trace/cochain/main.py
    and objects/CSCG/_3d/forms/trace/base/cochain.py. One core; a dict is an
    association list in insertion order. *)
From Coq Require Import List Arith ZArith Bool.
From Verif Require Import Prelude RingSum AssembleModel.
Import ListNotations.

Section Tew.
  Context {K : CRing}.

  Definition dict (A : Type) : Type := list (nat * A).
  Definition at_key {A} (k : nat) (d : dict A) : option A :=
    lookup Nat.eqb k d.
  Definition has_key {A} (k : nat) (d : dict A) : bool :=
    match at_key k d with Some _ => true | None => false end.

  (** Sides are numbered as in 'NSWEBF'. A hybrid form has the dofs of the
      sides one after the other; other forms have
      numbering.local_gathering, here with sides as keys. *)
  Inductive dofs := Hybrid | Gathered (G : list (nat * list Z)).

  (** What is used of mesh and form: mesh.trace.elements.map of the local
      elements, the local trace elements with CHARACTERISTIC_element and
      CHARACTERISTIC_side, num.basis_onside, num.basis and the dofs. *)
  Record tform := mktform {
    t_map : dict (list nat);
    t_cp : dict (nat * nat);
    t_onside : list nat;
    t_basis : nat;
    t_dofs : dofs }.

  (** cochain/main.py lines 14-18 and whether.py line 19: _local_,
      _local_TEW_ and whether._full_. *)
  Record state := mkstate {
    s_local : option (dict (list K));
    s_tew : option (dict (list K));
    s_full : option bool }.
  Definition new_state : state := mkstate None None None.

  (** An exception leaves the object as it is when it is raised. *)
  Inductive outcome := Done (s : state) | Raised (s : state).

  (** cochain/main.py lines 231-249, the setter of local. *)
  Definition set_local (m : tform) (L : dict (list K)) (s : state) : outcome :=
    let s1 := mkstate (s_local s) (s_tew s)
                (Some (length L =? length (t_map m))) in
    if forallb (fun kv => length (snd kv) =? t_basis m) L
    then Done (mkstate (Some L) None (s_full s1))
    else Raised s1.

  (** base/cochain.py lines 20-34: INDICES and the slice of a side. *)
  Fixpoint starts (from : nat) (ns : list nat) : list nat :=
    match ns with
    | [] => [from]
    | n :: ns' => from :: starts (from + n) ns'
    end.
  Definition slice (ns : list nat) (v : list K) (a : nat) : option (list K) :=
    match nth_error (starts 0 ns) a, nth_error (starts 0 ns) (S a) with
    | Some i, Some j => Some (firstn (j - i) (skipn i v))
    | _, _ => None
    end.

  (** base/cochain.py lines 26-37, the hybrid case; None is an exception. *)
  Fixpoint tew_hybrid (m : tform) (L : dict (list K)) (tes : dict (nat * nat))
    (T : dict (list K)) : option (dict (list K)) :=
    match tes with
    | [] => Some T
    | (i, (ce, cs)) :: tes' =>
        match at_key ce L with
        | Some v =>
            if has_key i T then tew_hybrid m L tes' T
            else match slice (t_onside m) v cs with
                 | Some w => tew_hybrid m L tes' (T ++ [(i, w)])
                 | None => None
                 end
        | None => tew_hybrid m L tes' T
        end
    end.

  (** base/cochain.py lines 44-50: the sides of one element; the first value
      of a trace element stays. *)
  Fixpoint tew_sides (E : dict (list K)) (a : nat) (tes : list nat)
    (T : dict (list K)) : option (dict (list K)) :=
    match tes with
    | [] => Some T
    | te :: tes' =>
        if has_key te T then tew_sides E (S a) tes' T
        else match at_key a E with
             | Some w => tew_sides E (S a) tes' (T ++ [(te, w)])
             | None => None
             end
    end.

  (** base/cochain.py lines 39-50, the other case. *)
  Fixpoint tew_gathered (m : tform) (G : list (nat * list Z))
    (L : dict (list K)) (T : dict (list K)) : option (dict (list K)) :=
    match L with
    | [] => Some T
    | (e, v) :: L' =>
        match VectorDistributor nat K G v, at_key e (t_map m) with
        | Some E, Some tes =>
            match tew_sides E 0 tes T with
            | Some T' => tew_gathered m G L' T'
            | None => None
            end
        | _, _ => None
        end
    end.

  Definition local_2_tew (m : tform) (L : dict (list K))
    : option (dict (list K)) :=
    match t_dofs m with
    | Hybrid => tew_hybrid m L (t_cp m) []
    | Gathered G => tew_gathered m G L []
    end.

  (** cochain/main.py lines 252-265, the getter of local_TEW: the object
      afterwards and the value; [Raised] with an exception. *)
  Definition get_tew (m : tform) (s : state)
    : outcome * option (dict (list K)) :=
    match s_tew s, s_local s with
    | None, Some L =>
        match local_2_tew m L with
        | Some T => (Done (mkstate (s_local s) (Some T) (s_full s)), Some T)
        | None => (Raised s, None)
        end
    | t, _ => (Done s, t)
    end.

  (** cochain/main.py lines 277-281; a key that is no local trace element is
      a KeyError. *)
  Definition tew_shape (m : tform) (kv : nat * list K) : bool :=
    match at_key (fst kv) (t_cp m) with
    | Some (_, cs) =>
        match nth_error (t_onside m) cs with
        | Some n => length (snd kv) =? n
        | None => false
        end
    | None => false
    end.

  (** cochain/main.py lines 286-300 and 306-313. *)
  Definition all_given (T : dict (list K)) (tes : list nat) : bool :=
    forallb (fun te => has_key te T) tes.

  (** cochain/main.py lines 315-326: the vector of one element;
      None is an exception. *)
  Definition join (m : tform) (T : dict (list K)) (tes : list nat)
    : option (list K) :=
    match all_some (map (fun te => at_key te T) tes) with
    | None => None
    | Some vs =>
        match (match t_dofs m with
               | Hybrid => Some (concat vs)
               | Gathered G =>
                   VectorAssembler nat Nat.eqb K G Replace
                     (combine (seq 0 6) vs)
               end) with
        | Some v => if length v =? t_basis m then Some v else None
        | None => None
        end
    end.

  (** cochain/main.py lines 302-330. *)
  Fixpoint tew_2_local (m : tform) (T : dict (list K))
    (es : dict (list nat)) : option (dict (list K)) :=
    match es with
    | [] => Some []
    | (e, tes) :: es' =>
        if all_given T tes
        then match join m T tes, tew_2_local m T es' with
             | Some v, Some L => Some ((e, v) :: L)
             | _, _ => None
             end
        else tew_2_local m T es'
    end.

  (** cochain/main.py lines 267-332, the setter of local_TEW. *)
  Definition set_tew (m : tform) (T : dict (list K)) (s : state) : outcome :=
    if forallb (tew_shape m) T
    then
      let full := forallb (fun et => all_given T (snd et)) (t_map m) in
      match tew_2_local m T (t_map m) with
      | Some L => Done (mkstate (Some L) (Some T) (Some full))
      | None => Raised (mkstate (s_local s) (Some T) (Some full))
      end
    else Raised s.
End Tew.
Arguments state : clear implicits.
Arguments outcome : clear implicits.
