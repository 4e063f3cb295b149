(** What multi-dimensional matrices and nonlinear systems mean, without einsum: multilinear forms and their values. *)
From Coq Require Import List Arith Bool.
From Verif Require Import Prelude RingSum MdmModel.
Import ListNotations.

Section MdmSpec.
  Variable K : CRing.
  Variable nb : form -> nat.
  (** the array as a multilinear form: contract one axis after the other *)
  Fixpoint mval (ds : list nat) (T : list nat -> K) (xs : list (nat -> K)) : K :=
    match ds, xs with
    | [], _ => T []
    | d :: ds', x :: xs' => bsum (seq 0 d) (fun i => rmul (x i) (mval ds' (fun a => T (i :: a)) xs'))
    | _ :: _, [] => r0
    end.
  (** xs with x inserted at position k *)
  Fixpoint put_at {A} (k : nat) (x : A) (xs : list A) : list A :=
    match k, xs with
    | O, _ => x :: xs
    | S k', y :: ys => y :: put_at k' x ys
    | S _, [] => [x]
    end.
  (** the value of the form in element e when every form f carries the vector [env f] *)
  Definition mform (m : mdm K) (e : nat) (env : form -> nat -> K) : K :=
    mval (map nb (cor K m)) (arr K m e) (map env (cor K m)).
  Definition unit (i : nat) : nat -> K := fun j => if j =? i then r1 else r0.
  Definition upd (env : form -> nat -> K) (f : form) (x : nat -> K) : form -> nat -> K :=
    fun g => if g =? f then x else env g.
  (** the vector the pairs give to a form *)
  Fixpoint given (pairs : list (form * local K)) (e : nat) (f : form) : nat -> K :=
    match pairs with
    | [] => fun _ => r0
    | (g, c) :: ps => if g =? f then c e else given ps e f
    end.

  (** * the system: the j-th unknown carries xs_j *)
  (** the vectors of the unknowns *)
  Definition at_unknowns (s : nls K) (xs : list (local K)) (e : nat) : form -> nat -> K :=
    given (combine (unknowns K s) xs) e.
  Definition linear_part (s : nls K) (xs : list (local K)) (i e r : nat) : K :=
    bsum (seq 0 (length (unknowns K s))) (fun j =>
      match block K s i j with
      | None => r0
      | Some M => bsum (seq 0 (nb (nth j (unknowns K s) 0))) (fun c => rmul (M e r c) (nth j xs (fun _ _ => r0) e c))
      end).
  Definition nonlinear_part (s : nls K) (xs : list (local K)) (i e r : nat) : K :=
    bsum (term_row K s i) (fun m => mform m e (upd (at_unknowns s xs e) (nth i (tests K s) 0) (unit r))).
  Definition rhs_part (s : nls K) (i e r : nat) : K :=
    match nth i (bs K s) (BNone K) with BVec _ v => v e r | _ => r0 end.
  (** row r of element e of the i-th equation *)
  Definition residual (s : nls K) (xs : list (local K)) (i e r : nat) : K :=
    rsub (radd (linear_part s xs i e r) (nonlinear_part s xs i e r)) (rhs_part s i e r).

  (** the shapes the code can handle: the forms of the system are pairwise different, right hand sides are
      vectors or None, one for each equation, no equation is empty *)
  Definition usable (s : nls K) : Prop :=
    nls_ok K s = true /\ NoDup (unknowns K s) /\ length (bs K s) = length (tests K s) /\
    ~ In (BZero K) (bs K s) /\
    forall i, i < length (tests K s) ->
      term_row K s i <> [] \/ (exists j M, j < length (unknowns K s) /\ block K s i j = Some M) \/
      (exists v, nth i (bs K s) (BNone K) = BVec K v).
  (** all nonlinear terms are trilinear *)
  Definition trilinear (s : nls K) : Prop := forall i m, In m (term_row K s i) -> length (cor K m) = 3.

  (** * the assembled system *)
  Variables (els : list nat) (gt gu : nat -> nat -> nat -> nat).
  (** sum of the local contributions to the global row R *)
  Definition gather_rows (s : nls K) (f : nat -> nat -> nat -> K) (R : nat) : K :=
    bsum els (fun e => bsum (seq 0 (length (tests K s))) (fun i =>
      bsum (seq 0 (nb (nth i (tests K s) 0))) (fun r => if gt i e r =? R then f i e r else r0))).
  Definition locals (s : nls K) (x : nat -> K) : list (local K) :=
    map (fun j => fun e r => x (gu j e r)) (seq 0 (length (unknowns K s))).
  (** F(x) and its quadratic part *)
  Definition F (s : nls K) (x : nat -> K) : nat -> K := gather_rows s (residual s (locals s x)).
  Definition N (s : nls K) (x : nat -> K) : nat -> K := gather_rows s (nonlinear_part s (locals s x)).
  (** the chained numbering of the unknowns stays below the number of dofs *)
  Definition numbering (s : nls K) (n : nat) : Prop :=
    forall j e r, j < length (unknowns K s) -> In e els -> r < nb (nth j (unknowns K s) 0) -> gu j e r < n.
  Definition mat_vec (n : nat) (A : nat -> nat -> K) (h : nat -> K) (R : nat) : K :=
    bsum (seq 0 n) (fun C => rmul (A R C) (h C)).
  (** x + s h *)
  Definition along (x h : nat -> K) (s : K) : nat -> K := fun i => radd (x i) (rmul s (h i)).
End MdmSpec.

(** * exact corrections *)
Section NewtonSpec.
  Variable K : CRing.
  Variables (nb : form -> nat) (els : list nat) (gt gu : nat -> nat -> nat -> nat).
  (** the correction solves the linear system built at x exactly (the first n rows) *)
  Definition exact_solver (s : nls K) (n : nat) (correction : (nat -> K) -> list nat -> nat -> K) : Prop :=
    forall x fixed A b, newton_system K nb els gt gu s fixed x = Some (A, b) ->
      forall R, R < n -> mat_vec K n A (correction x fixed) R = b R.
End NewtonSpec.
