(** When mesh and form fit together, and what the two forms of a cochain have
    to do with each other. *)
From Coq Require Import List Arith ZArith.
From Verif Require Import Prelude RingSum AssembleSpec TewModel.
Import ListNotations.

(** Entry [p] of side [a] is entry [d] of the element. *)
Definition entry (m : tform) (a p d : nat) : Prop :=
  match t_dofs m with
  | Hybrid => exists n, nth_error (t_onside m) a = Some n /\ p < n /\
                d = sum (firstn a (t_onside m)) + p
  | Gathered G => exists g, In (a, g) G /\
                nth_error g p = Some (Z.of_nat d)
  end.

(** Trace element [te] is on side [a] of element [e]. *)
Definition on_side (m : tform) (te e a : nat) : Prop :=
  exists tes, In (e, tes) (t_map m) /\ nth_error tes a = Some te.

(** A form on a mesh: elements have six sides, the trace elements are the ones
    of the elements, each has a characteristic place, and all its places have
    the same number of dofs. *)
Definition fits (m : tform) : Prop :=
  NoDup (map fst (t_map m)) /\ NoDup (map fst (t_cp m)) /\
  (forall e tes, In (e, tes) (t_map m) -> length tes = 6) /\
  length (t_onside m) = 6 /\
  (forall te e a, on_side m te e a ->
     exists ce cs, In (te, (ce, cs)) (t_cp m) /\
       nth_error (t_onside m) cs = nth_error (t_onside m) a) /\
  (forall te ce cs, In (te, (ce, cs)) (t_cp m) -> on_side m te ce cs) /\
  match t_dofs m with
  | Hybrid => sum (t_onside m) = t_basis m
  | Gathered G => map fst G = seq 0 6 /\
      map (fun ag => length (snd ag)) G = t_onside m /\
      numbers_0_to (map snd G) (Z.of_nat (t_basis m))
  end.

(** The elements from which the values on a trace element may be taken. *)
Definition source (m : tform) (te e : nat) : Prop :=
  match t_dofs m with
  | Hybrid => exists cs, In (te, (e, cs)) (t_cp m)
  | Gathered _ => exists a, on_side m te e a
  end.

Section Spec.
  Context {K : CRing}.

  (** Distinct keys: what a dict has. *)
  Definition keys_ok {A} (d : list (nat * A)) : Prop := NoDup (map fst d).

  (** The values of side [a] of the vector [v] of an element. *)
  Definition on_side_values (m : tform) (a : nat) (v w : list K) : Prop :=
    nth_error (t_onside m) a = Some (length w) /\
    forall p d, entry m a p d -> nth_error v d = nth_error w p.

  (** Shapes. *)
  Definition local_shapes (m : tform) (L : list (nat * list K)) : Prop :=
    forall e v, In (e, v) L -> length v = t_basis m.
  Definition tew_shapes (m : tform) (T : list (nat * list K)) : Prop :=
    forall te w, In (te, w) T -> exists ce cs,
      In (te, (ce, cs)) (t_cp m) /\
      nth_error (t_onside m) cs = Some (length w).

  (** The values on trace elements agree where sides of an element share a
      dof. *)
  Definition conforming (m : tform) (T : list (nat * list K)) : Prop :=
    forall e a b ta tb va vb p q d, on_side m ta e a -> on_side m tb e b ->
    In (ta, va) T -> In (tb, vb) T -> entry m a p d -> entry m b q d ->
    nth_error va p = nth_error vb q.

  (** The vectors of the elements agree on common trace elements. *)
  Definition single_valued (m : tform) (L : list (nat * list K)) : Prop :=
    forall te e a f b v w p d d', on_side m te e a -> on_side m te f b ->
    In (e, v) L -> In (f, w) L -> entry m a p d -> entry m b p d' ->
    nth_error v d = nth_error w d'.

  (** All elements have vectors, and only they. *)
  Definition covers (m : tform) (L : list (nat * list K)) : Prop :=
    forall e, In e (map fst L) <-> In e (map fst (t_map m)).

  (** The same dict. *)
  Definition same_dict (D D' : list (nat * list K)) : Prop :=
    forall k v, In (k, v) D <-> In (k, v) D'.
End Spec.
