(** Local trace forms: which entry of an element is which entry of a side. *)
From Coq Require Import List Arith ZArith.
From Verif Require Import Prelude RingSum AssembleSpec TewModel LtcModel.
Import ListNotations.

(** Entry [p] of side [a] is entry [d] of the element. *)
Definition lt_entry (m : ltform) (a p d : nat) : Prop :=
  match l_dofs m with
  | Hybrid => exists n, nth_error (l_onside m) a = Some n /\ p < n /\
                d = sum (firstn a (l_onside m)) + p
  | Gathered G => exists g, In (a, g) G /\ nth_error g p = Some (Z.of_nat d)
  end.
(** A form on elements with six sides. *)
Definition lt_fits (m : ltform) : Prop :=
  NoDup (l_els m) /\ length (l_onside m) = 6 /\
  match l_dofs m with
  | Hybrid => sum (l_onside m) = l_basis m
  | Gathered G => map fst G = seq 0 6 /\
      map (fun ag => length (snd ag)) G = l_onside m /\
      numbers_0_to (map snd G) (Z.of_nat (l_basis m))
  end.
(** Opposite sides have as many dofs. *)
Definition opposite_alike (m : ltform) : Prop :=
  forall b, nth_error (l_onside m) (2 * b) = nth_error (l_onside m) (2 * b + 1).

Section Spec.
  Context {K : CRing}.
  (** The values [w] of side [a] of the vector [v] of an element. *)
  Definition side_values (m : ltform) (a : nat) (v w : list K) : Prop :=
    nth_error (l_onside m) a = Some (length w) /\
    forall p d, lt_entry m a p d -> nth_error v d = nth_error w p.
  Definition lt_shapes (m : ltform) (L : list (nat * list K)) : Prop :=
    forall e v, In (e, v) L -> length v = l_basis m.
  (** [T] is [L] side by side. *)
  Definition sides_of (m : ltform) (L : list (nat * list K)) (T : list (nat * list (nat * list K))) : Prop :=
    map fst T = map fst L /\
    forall e v E, In (e, v) L -> In (e, E) T ->
      map fst E = seq 0 6 /\ forall a w, In (a, w) E -> side_values m a v w.
  (** A dict by elements and sides: keys are distinct, shapes are right. *)
  Definition esw_ok (m : ltform) (T : list (nat * list (nat * list K))) : Prop :=
    NoDup (map fst T) /\ forall e E, In (e, E) T -> In e (l_els m) /\ NoDup (map fst E) /\
      forall a w, In (a, w) E -> nth_error (l_onside m) a = Some (length w).
  (** Values agree where two sides share a dof. *)
  Definition sides_agree (m : ltform) (E : list (nat * list K)) : Prop :=
    forall a b va vb p q d, In (a, va) E -> In (b, vb) E -> lt_entry m a p d -> lt_entry m b q d ->
      nth_error va p = nth_error vb q.
  Definition all_sides_of (E : list (nat * list K)) : Prop := forall a, In a (map fst E) <-> a < 6.
End Spec.

Section Runs.
  Context {K : CRing}.
  (** What a program does with a cochain; dicts have distinct keys. *)
  Inductive lt_op := SetLocal (L : list (nat * list K)) | SetEsw (T : list (nat * list (nat * list K))) | GetEsw.
  Definition op_ok (m : ltform) (o : lt_op) : Prop :=
    match o with
    | SetLocal L => NoDup (map fst L)
    | SetEsw T => NoDup (map fst T) /\ forall e E, In (e, E) T -> NoDup (map fst E) /\ sides_agree m E
    | GetEsw => True
    end.
  (** Exceptions are caught by the program. *)
  Definition after (r : loutcome K) : lstate K := match r with LDone s => s | LRaised s => s end.
  Definition do_op (m : ltform) (s : lstate K) (o : lt_op) : lstate K :=
    match o with
    | SetLocal L => after (set_local_lt m L s)
    | SetEsw T => after (set_esw m T s)
    | GetEsw => after (fst (get_esw m s))
    end.
End Runs.
Arguments lt_op : clear implicits.

(** The dofs of side [a], by their places in the element and by their numbers. *)
Definition side_places (m : ltform) (a : nat) (l : list nat) : Prop :=
  nth_error (l_onside m) a = Some (length l) /\ forall p d, lt_entry m a p d -> nth_error l p = Some d.
Definition side_numbers (m : ltform) (e a : nat) (l : list nat) : Prop :=
  nth_error (l_onside m) a = Some (length l) /\ forall p d, lt_entry m a p d -> nth_error l p = Some (e * l_basis m + d).
(** The cache after calls of only one of the two functions. *)
Definition after_numbers (m : ltform) (es : list (nat * nat)) : lcache :=
  fold_left (fun c ea => snd (dofs_on_side m (fst ea) (snd ea) c)) es [].
Definition after_places (m : ltform) (sides : list nat) : lcache :=
  fold_left (fun c a => snd (local_dofs_on_side m a c)) sides [].
