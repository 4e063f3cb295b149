(** Specification vocabulary for C18-C23: assembling is adding every local entry at the position given
    by the gathering vectors. *)
From Coq Require Import List Arith ZArith Bool Sorting.Sorted.
From Verif Require Import Prelude RingSum AssembleModel GatherModel GatherSpec EwcModel VCusProofs AsmModel.
Import ListNotations.

Section AsmSpec.
  Variable K : CRing.

  (** what a local matrix with entries [f] adds at position (a, b) *)
  Definition scat (gi gj : list nat) (f : nat -> nat -> K) (a b : nat) : K :=
    bsum (enumerate gi) (fun p => bsum (enumerate gj) (fun q =>
      if (snd p =? a) && (snd q =? b) then f (fst p) (fst q) else r0)).
  Definition vscat (gi : list nat) (f : nat -> K) (a : nat) : K :=
    bsum (enumerate gi) (fun p => if snd p =? a then f (fst p) else r0).

  (** a csc or csr matrix with indices in range *)
  Definition valid (M : sparse K) : Prop :=
    match M with
    | CSC _ nr cols => forall col p, In col cols -> In p col -> fst p < nr
    | CSR _ nc rows => forall row p, In row rows -> In p row -> fst p < nc
    | Dense _ _ => False
    end.
  Definition fits (g : gathering) (eM : nat * sparse K) : Prop :=
    valid (snd eM) /\ exists gi gj, GI g (fst eM) = Some gi /\ GJ g (fst eM) = Some gj /\
      shape (snd eM) = (length gi, length gj) /\ Forall (fun x => x < DEP g) gi /\ Forall (fun x => x < WID g) gj.

  Definition sum_of (g : gathering) (mats : list (nat * sparse K)) (a b : nat) : K :=
    bsum mats (fun eM => match GI g (fst eM), GJ g (fst eM) with
                         | Some gi, Some gj => scat gi gj (entry (snd eM)) a b
                         | _, _ => r0 end).

  (** same sparsity pattern at the same positions *)
  Definition pattern (M : sparse K) : bool * nat * list (list nat) :=
    match M with
    | CSC _ n cols => (true, n, map (map fst) cols)
    | CSR _ n rows => (false, n, map (map fst) rows)
    | Dense _ _ => (true, 0, [])
    end.
  Definition same_pattern (x y : gathering * list (nat * sparse K)) : Prop :=
    DEP (fst x) = DEP (fst y) /\ WID (fst x) = WID (fst y) /\
    map (fun eM => (fst eM, pattern (snd eM))) (snd x) = map (fun eM => (fst eM, pattern (snd eM))) (snd y) /\
    forall e, In e (map fst (snd x)) -> GI (fst x) e = GI (fst y) e /\ GJ (fst x) e = GJ (fst y) e.

  (** a program keeps the pattern as long as it has the sparsity locked *)
  Definition keeps_pattern (evs : list (aevent K)) : Prop :=
    forall pre g m mid g' m' post, evs = pre ++ Assemble K g m :: mid ++ Assemble K g' m' :: post ->
      ~ In (UnlockS K) mid ->
      (exists pre1 pre2, pre ++ Assemble K g m :: mid = pre1 ++ LockS K :: pre2 /\ ~ In (UnlockS K) pre2) ->
      same_pattern (g, m) (g', m').

  (** the first one assembled since the assembled matrix was locked for the last time *)
  Definition frozen_step (s : bool * option (gathering * list (nat * sparse K))) (ev : aevent K) :=
    match ev with
    | LockA _ => (true, snd s)
    | UnlockA _ => (false, None)
    | Assemble _ g m => (fst s, match snd s with None => if fst s then Some (g, m) else None | x => x end)
    | _ => s
    end.
  Definition frozen (evs : list (aevent K)) := snd (fold_left frozen_step evs (false, None)).

  Definition all_fit (evs : list (aevent K)) : Prop := forall g m, In (Assemble K g m) evs -> Forall (fits g) m.

  (** * vectors: a local vector is one csc column *)
  Definition ventry (col : list (nat * K)) (i : nat) : K := bsum col (fun p => if fst p =? i then snd p else r0).
  Definition vfits (n : nat) (G : nat -> option (list nat)) (ev : nat * list (nat * K)) : Prop :=
    exists gi, G (fst ev) = Some gi /\ Forall (fun p => fst p < length gi) (snd ev) /\ Forall (fun x => x < n) gi.
  Definition vsum_of (G : nat -> option (list nat)) (vs : list (nat * list (nat * K))) (a : nat) : K :=
    bsum vs (fun ev => match G (fst ev) with Some gi => vscat gi (ventry (snd ev)) a | None => r0 end).

  (** * customized objects on all cores *)
  Definition local_matrix (base : nat -> nat -> lmat K) (cus : cdict K) (r e : nat) : option (lmat K) :=
    apply_all (lmat K) (cusop K) (apply_cusop K r0 r1) (dget (cus r) e) (base r e).
  Definition local_vector (base : nat -> nat -> lvec K) (cus : vdict K) (r e : nat) : option (lvec K) :=
    vapply_all K r0 (dget (cus r) e) (base r e).

  (** A is the sum over all cores of the assembled customized local matrices *)
  Definition assembled (SIZE : nat) (rgms cgms : list GMat) (base : nat -> nat -> lmat K) (cus : cdict K)
    (A : nat -> nat -> K) : Prop :=
    exists Ms : nat -> nat -> lmat K,
      (forall r e, r < SIZE -> In e (elements (nth 0 rgms []) r) -> local_matrix base cus r e = Some (Ms r e)) /\
      forall a b, A a b = bsum (seq 0 SIZE) (fun r => bsum (elements (nth 0 rgms []) r) (fun e =>
        match CGM_getitem SIZE rgms Silly r e, CGM_getitem SIZE cgms Silly r e with
        | Some gi, Some gj => scat gi gj (ent K (Ms r e)) a b
        | _, _ => r0 end)).
  Definition vassembled (SIZE : nat) (gms : list GMat) (base : nat -> nat -> lvec K) (cus : vdict K)
    (V : nat -> K) : Prop :=
    exists Vs : nat -> nat -> lvec K,
      (forall r e, r < SIZE -> In e (elements (nth 0 gms []) r) -> local_vector base cus r e = Some (Vs r e)) /\
      forall a, V a = bsum (seq 0 SIZE) (fun r => bsum (elements (nth 0 gms []) r) (fun e =>
        match CGM_getitem SIZE gms Silly r e with Some gi => vscat gi (vent K (Vs r e)) a | None => r0 end)).

  (** the search limit N of the look-up is not reached for dof M *)
  Definition within_cap (SIZE : nat) (gms : list GMat) (N : option nat) (M : nat) : Prop :=
    match N with
    | None => True
    | Some n => 0 < n /\ forall r l, r < SIZE -> NoDup l ->
        (forall e, In e l -> exists v, CGM_getitem SIZE gms Silly r e = Some v /\ In M v) -> length l <= n
    end.
  (** no element has the dof twice *)
  Definition once (SIZE : nat) (gms : list GMat) (M : nat) : Prop :=
    forall r e v i j, CGM_getitem SIZE gms Silly r e = Some v -> nth_error v i = Some M -> nth_error v j = Some M -> i = j.
  Definition same_cores (SIZE : nat) (g h : GMat) : Prop :=
    forall r, r < SIZE -> forall e, In e (elements g r) <-> In e (elements h r).
  Definition sizes_match (SIZE : nat) (rgms cgms : list GMat) (base : nat -> nat -> lmat K) : Prop :=
    forall r e gi gj, CGM_getitem SIZE rgms Silly r e = Some gi -> CGM_getitem SIZE cgms Silly r e = Some gj ->
      nrow K (base r e) = length gi /\ ncol K (base r e) = length gj.
  Definition vsizes_match (SIZE : nat) (gms : list GMat) (base : nat -> nat -> lvec K) : Prop :=
    forall r e gi, CGM_getitem SIZE gms Silly r e = Some gi -> vlen K (base r e) = length gi.

  (** some element has row dof I and column dof J *)
  Definition coupled (SIZE : nat) (rgms cgms : list GMat) (I J : nat) : Prop :=
    exists r e gi gj, r < SIZE /\ CGM_getitem SIZE rgms Silly r e = Some gi /\ CGM_getitem SIZE cgms Silly r e = Some gj /\
      In I gi /\ In J gj.
  (** the elements of a core are stored in ascending order *)
  Definition ascending (gms : list GMat) : Prop := forall g r, In g gms -> StronglySorted lt (elements g r).
  (** x solves the system of assembled A and b *)
  Definition solves (n : nat) (A : nat -> nat -> K) (b x : nat -> K) : Prop :=
    forall a, a < n -> bsum (seq 0 n) (fun c => rmul (A a c) (x c)) = b a.

  (** python's meaning of a possibly negative row number *)
  Definition row_of (n : nat) (m : Z) : nat := Z.to_nat (if (m <? 0)%Z then m + Z.of_nat n else m)%Z.
End AsmSpec.
