(** Specification of strong boundary conditions: every place of a prescribed dof is prescribed; then the rows of the assembled system are
    equations of the prescribed unknowns. *)
From Coq Require Import List Arith Bool.
From Verif Require Import Prelude RingSum SpaceSpec NumModel NumSpec NhtModel GatherModel MeshMapModel StrongModel.
Import ListNotations.

(** the local dofs prescribed in element e of core r *)
Definition dofs_at (D : nat -> list (nat * list nat)) (r e : nat) : list nat :=
  match lookup Nat.eqb e (D r) with Some l => l | None => [] end.
(** the places of dof n: core, element, local number *)
Definition places (SIZE : nat) (g : GMat) (n : nat) : list (nat * nat * nat) :=
  flat_map (fun r => flat_map (fun ev => map (fun d => (r, fst ev, d)) (filter (fun d => nth d (snd ev) (S n) =? n) (seq 0 (length (snd ev)))))
                              (gm_local g r)) (seq 0 SIZE).
(** dof n is prescribed at one of its places *)
Definition prescribed (SIZE : nat) (g : GMat) (D : nat -> list (nat * list nat)) (n : nat) : Prop :=
  exists r e v d, r < SIZE /\ gv_of g r e = Some v /\ nth_error v d = Some n /\ In d (dofs_at D r e).
(** a dof prescribed at one of its places is prescribed at all *)
Definition saturated (SIZE : nat) (g : GMat) (D : nat -> list (nat * list nat)) : Prop :=
  forall r e v d n, r < SIZE -> gv_of g r e = Some v -> nth_error v d = Some n -> prescribed SIZE g D n -> In d (dofs_at D r e).
(** the prescribed dofs are those of elements of the core and in range *)
Definition in_range (SIZE : nat) (g : GMat) (D : nat -> list (nat * list nat)) : Prop :=
  forall r, r < SIZE -> NoDup (map fst (D r)) /\ forall e l, In (e, l) (D r) -> exists v, gv_of g r e = Some v /\ Forall (fun d => d < length v) l.
(** the value given last to d in a list of dofs and values *)
Fixpoint last_given {X} (ds : list nat) (vs : list X) (d : nat) : option X :=
  match ds, vs with
  | x :: ds', v :: vs' => match last_given ds' vs' d with Some w => Some w | None => if x =? d then Some v else None end
  | _, _ => None
  end.
Definition value_at {K : CRing} (D : nat -> list (nat * list nat)) (C : nat -> option (list (nat * list K))) (p : nat * nat * nat) : option K :=
  let '(r, e, d) := p in
  match C r with
  | Some c => match lookup Nat.eqb e c with Some vs => last_given (dofs_at D r e) vs d | None => None end
  | None => None
  end.
(** the values are given *)
Definition valued {K : CRing} (SIZE : nat) (D : nat -> list (nat * list nat)) (C : nat -> option (list (nat * list K))) : Prop :=
  forall r, r < SIZE -> match C r with
                        | Some c => forall e l, In (e, l) (D r) -> exists vs, lookup Nat.eqb e c = Some vs /\ length vs = length l
                        | None => D r = []
                        end.
Definition value_or_0 {K : CRing} (D : nat -> list (nat * list nat)) (C : nat -> option (list (nat * list K))) (p : nat * nat * nat) : K :=
  match value_at D C p with Some v => v | None => r0 end.

(** partners: dof d of element e of core r is paired with dof c of the column form; one partner for each *)
Definition partner (D C : nat -> list (nat * list nat)) (r e d c : nat) : Prop := In (d, c) (combine (dofs_at D r e) (dofs_at C r e)).
Definition paired_up (SIZE : nat) (D C : nat -> list (nat * list nat)) : Prop :=
  forall r, r < SIZE -> map fst (C r) = map fst (D r) /\ (forall e, length (dofs_at C r e) = length (dofs_at D r e)) /\
    forall e d c c', partner D C r e d c -> partner D C r e d c' -> c = c'.
(** the number of the partner of the dof at a place, in the gathering matrix of the columns *)
Definition partner_of (D C : nat -> list (nat * list nat)) (r e d : nat) : option nat :=
  match find (fun dc => fst dc =? d) (combine (dofs_at D r e) (dofs_at C r e)) with Some dc => Some (snd dc) | None => None end.
Definition partner_number (g : GMat) (D C : nat -> list (nat * list nat)) (p : nat * nat * nat) : option nat :=
  let '(r, e, d) := p in
  match partner_of D C r e d, gv_of g r e with Some c, Some v => nth_error v c | _, _ => None end.

(** * the dofs on boundaries: side s of element e of core r is beside a boundary with property B *)
Definition beside_boundary (ms : list emap) (B : nat -> Prop) (r e : nat) (s : nat * bool) : Prop :=
  fst s < 3 /\ exists m row b, nth_error ms r = Some m /\ In (e, row) m /\ nth_error row (2 * fst s + (if snd s then 1 else 0)) = Some (Bd b) /\ B b.
(** the local dofs with cells on these sides *)
Definition boundary_dof (p : list nat) (ts : list ctype) (ms : list emap) (B : nat -> Prop) (r e d : nat) : Prop :=
  exists s x, beside_boundary ms B r e s /\ nth_error (cells p ts) d = Some x /\ on_side p s x = true.
(** m a = m b only if a = b, for m > 0: the integers, the reals *)
Definition n_times_injective (K : CRing) : Prop := forall m (a b : K), nmul (S m) a = nmul (S m) b -> a = b.
(** x satisfies the condition (value w n for the prescribed dofs n of the block starting at o) and all other equations of A x = b *)
Definition solves_with {K : CRing} (N o : nat) (P : nat -> Prop) (w : nat -> K) (A : nat -> nat -> K) (b x : nat -> K) : Prop :=
  (forall n, P n -> x (o + n) = w n) /\
  forall a, a < N -> (forall n, P n -> a <> o + n) -> bsum (seq 0 N) (fun c => rmul (A a c) (x c)) = b a.
(** the cochain c has value w n for dof n at each of its places *)
Definition values_are {K : CRing} (SIZE : nat) (g : GMat) (D : nat -> list (nat * list nat)) (C : nat -> option (list (nat * list K))) (w : nat -> K) : Prop :=
  forall r e v d n, r < SIZE -> gv_of g r e = Some v -> nth_error v d = Some n -> In d (dofs_at D r e) -> value_at D C (r, e, d) = Some (w n).
(** the boundaries asked for *)
Definition asked (q : request) (b : nat) : Prop := match q with All => True | Those l => In b l end.
(** the cells of the dofs of a form *)
Definition cell_types (k : nform) : list ctype := match k with F0 => node_types 3 | F1 => edge_types 3 | F2 => face_types 3 end.
(** the condition q is on the dofs with cells on the boundaries asked for, and a dof of several elements is prescribed in all or none *)
Definition ready (k : nform) (p : list nat) (ms : list emap) (q : request) (iEPs : list (list part)) (g : GMat) : Prop :=
  exists D, (forall r, r < length g -> exists iEP, nth_error iEPs r = Some iEP /\ parse_dofs (local_side k p) iEP = Some (D r)) /\
    in_range (length g) g D /\ saturated (length g) g D /\
    forall r e d, r < length g -> (In d (dofs_at D r e) <-> boundary_dof p (cell_types k) ms (asked q) r e d).
(** local cochains with value w e d, as f.discretize gives them *)
Definition carries {K : CRing} (side_dofs : nat * bool -> option (list nat)) (dofs : list (nat * list nat)) (iEP : list part) (w : nat -> nat -> K) (lc : local_cochain K) : Prop :=
    match lc with
    | LocallyFull c => forall e l d, In (e, l) dofs -> In d l -> exists ce, lookup Nat.eqb e c = Some ce /\ nth_error ce d = Some (w e d)
    | SideWise c => forall e s l, In (e, s) iEP -> side_dofs s = Some l -> exists ce, c e = Some ce /\ ce s = Some (map (w e) l)
    end.

(** * the cache: the parts of form f after a run of events, by the last event on f *)
Fixpoint latest (evs : list cevent) (f : nat) (now : option (list part)) : option (list part) :=
  match evs with
  | [] => now
  | SetBoundaries g _ iEP :: evs' => latest evs' f (if g =? f then Some iEP else now)
  | Delete g :: evs' => latest evs' f (if g =? f then None else now)
  | Interpret _ :: evs' => latest evs' f now
  end.
Definition addresses (evs : list cevent) : list nat := flat_map (fun ev => match ev with SetBoundaries _ a _ => [a] | _ => [] end) evs.
(** two lists alive at the same time have different addresses; when boundaries are set anew, the old list is alive until the new one is made *)
Fixpoint distinct_alive (evs : list cevent) (alive : list (nat * nat)) : Prop :=
  match evs with
  | [] => True
  | SetBoundaries f a _ :: evs' => ~ In a (map snd alive) /\ distinct_alive evs' ((f, a) :: filter (fun fa => negb (fst fa =? f)) alive)
  | Delete f :: evs' => distinct_alive evs' (filter (fun fa => negb (fst fa =? f)) alive)
  | Interpret _ :: evs' => distinct_alive evs' alive
  end.
