(** The multi-dimensional matrices of tools/elementwiseCache/dataStructures/objects/multiDimMatrix and the nonlinear
    systems of tools/miLinearAlgebra/nonlinearSystem built on them.
    A form is its identity (a number), what the code reads of it is [num.basis] (here [nb]) and, element by element,
    its local cochain. Floats are the elements of a commutative ring. The caches of the elementwise objects are not
    modelled here (all objects made here are 'no_cache'). *)
From Coq Require Import List Arith Bool.
From Verif Require Import Prelude RingSum.
Import ListNotations.

Notation form := nat (only parsing).
(** list.index: the first position *)
Fixpoint index_of (f : form) (l : list form) : option nat :=
  match l with
  | [] => None
  | g :: l' => if g =? f then Some 0 else option_map S (index_of f l')
  end.
Definition mem (f : form) (l : list form) : bool := existsb (Nat.eqb f) l.
(** l without its k-th entry *)
Fixpoint drop_at {A} (k : nat) (l : list A) : list A :=
  match l, k with
  | [], _ => []
  | _ :: l', O => l'
  | a :: l', S k' => a :: drop_at k' l'
  end.
Fixpoint nat_list_eqb (l m : list nat) : bool :=
  match l, m with
  | [], [] => true
  | a :: l', b :: m' => (a =? b) && nat_list_eqb l' m'
  | _, _ => false
  end.

Section Mdm.
  Variable K : CRing.
  (** num.basis of a form *)
  Variable nb : form -> nat.
  (** element -> local dof -> value *)
  Definition local := nat -> nat -> K.
  Definition lmat := nat -> nat -> nat -> K.

  (** main.py:19-56: an array per element, axis k belonging to the k-th form of the correspondence *)
  Record mdm := mkMdm { cor : list form; arr : nat -> list nat -> K }.
  Definition ndim (m : mdm) : nat := length (cor m).
  Definition dims (m : mdm) : list nat := map nb (cor m).

  (** numpy's einsum for 'abc..,x,y,..->out' where x, y, ... and the letters of out are letters of the first
      operand, which is indexed by all its letters in order (letter k = axis k): the sum over all the values of the
      letters agreeing with the requested index *)
  Fixpoint box (ds : list nat) : list (list nat) :=
    match ds with
    | [] => [[]]
    | d :: ds' => flat_map (fun i => map (cons i) (box ds')) (seq 0 d)
    end.
  Definition bprod {A} (l : list A) (f : A -> K) : K := fold_right (fun a p => rmul (f a) p) r1 l.
  Definition einsum (ds : list nat) (T : list nat -> K) (ops : list (nat * (nat -> K))) (out : list nat)
    : list nat -> K :=
    fun o => bsum (box ds) (fun a =>
      if nat_list_eqb (map (fun k => nth k a 0) out) o
      then rmul (T a) (bprod ops (fun p => snd p (nth (fst p) a 0))) else r0).

  (** __neg__ and __mul__ (main.py:152-168, helpers): elementwise *)
  Definition mdm_neg (m : mdm) : mdm := mkMdm (cor m) (fun e a => ropp (arr m e a)).
  Definition mdm_mul (c : K) (m : mdm) : mdm := mkMdm (cor m) (fun e a => rmul c (arr m e a)).

  (** whether.py:18-36 *)
  Definition inhomogeneous (m : mdm) : bool :=
    forallb (fun i => forallb (fun j =>
      negb (negb (i =? j) && (nth i (cor m) 0 =? nth j (cor m) 0))) (seq 0 (ndim m))) (seq 0 (ndim m)).

  (** do/main.py:37-59, helpers/eliminate_helper.py:12-33. None: the IndexError of _indices[dim] *)
  Definition eliminate (m : mdm) (dim : nat) (c : local) : option mdm :=
    if dim <? ndim m then
      Some (mkMdm (drop_at dim (cor m))
                  (fun e => einsum (dims m) (arr m e) [(dim, c e)] (drop_at dim (seq 0 (ndim m)))))
    else None.

  (** do/main.py:61-88, helpers/sparse_matrix_helper.py: the forms of the rows and of the columns, the matrix *)
  Definition sparse_matrix (m : mdm) (transpose : bool) : option (form * form * lmat) :=
    match cor m with
    | [f0; f1] => Some (if transpose then (f1, f0, fun e i j => arr m e [j; i])
                        else (f0, f1, fun e i j => arr m e [i; j]))
    | _ => None
    end.

  (** do/main.py:90-150. The outer None: an exception; Some None: python's None *)
  Definition derivative_contribution_to (m : mdm) (tv uv : form) (known : list (form * local))
    : option (option (form * form * lmat)) :=
    if negb (mem tv (cor m)) then None
    else if negb (mem uv (cor m)) then Some None
    else
      let pairs := filter (fun kp => mem (fst kp) (cor m)) known in
      if ndim m =? 3 then
        if inhomogeneous m then
          match pairs with
          | [(f, shadow)] =>
              match index_of f (cor m) with
              | None => None
              | Some index =>
                  match eliminate m index shadow with
                  | None => None
                  | Some m2 =>
                      let r := if nat_list_eqb (cor m2) [tv; uv] then sparse_matrix m2 false
                               else if nat_list_eqb (cor m2) [uv; tv] then sparse_matrix m2 true
                               else None in
                      match r with Some x => Some (Some x) | None => None end
                  end
              end
          | _ => None
          end
        else None
      else None.

  (** a python dict with int keys, in insertion order *)
  Fixpoint dset (d : list (nat * local)) (k : nat) (v : local) : list (nat * local) :=
    match d with
    | [] => [(k, v)]
    | (k', v') :: d' => if k' =? k then (k, v) :: d' else (k', v') :: dset d' k v
    end.
  (** do/main.py:167-172 *)
  Definition eliminated_dimensions (m : mdm) (pairs : list (form * local)) : list (nat * local) :=
    fold_left (fun d p => match index_of (fst p) (cor m) with Some i => dset d i (snd p) | None => d end) pairs [].
  (** helpers/evaluate_remaining_1.py:18-24: the first axis not eliminated (the last one if all are) *)
  Definition rm_dim (n : nat) (ks : list nat) : nat :=
    match find (fun i => negb (mem i ks)) (seq 0 n) with Some i => i | None => n - 1 end.

  Inductive evaluated := EReal (x : K) | EVec (v : local).
  (** do/main.py:152-215; [cores] are the elements of each core. Remaining axes: 0 -> the number every core gets,
      1 -> a column vector, more -> NotImplementedError *)
  Definition evaluate (cores : list (list nat)) (m : mdm) (pairs : list (form * local)) : option evaluated :=
    let d := eliminated_dimensions m pairs in
    let ops := fun e => map (fun p => (fst p, snd p e)) d in
    match ndim m - length d with
    | O => Some (EReal (bsum cores (fun es => bsum es (fun e => einsum (dims m) (arr m e) (ops e) [] []))))
    | 1 => Some (EVec (fun e i => einsum (dims m) (arr m e) (ops e) [rm_dim (ndim m) (map fst d)] [i]))
    | _ => None
    end.

  (** do/main.py:217-236, helpers/reduce_to_vector_helper.py:14-47; [c]: the cochains of the forms when the vector is
      read *)
  Definition reduce_to_vector (m : mdm) (v : form) (c : form -> local) : option local :=
    if 2 <=? ndim m then
      match index_of v (cor m) with
      | None => None
      | Some r =>
          let others := filter (fun k => negb (k =? r)) (seq 0 (ndim m)) in
          Some (fun e i => einsum (dims m) (arr m e) (map (fun k => (k, c (nth k (cor m) 0) e)) others) [r] [i])
      end
    else None.

  (** * nonlinear systems *)
  (** main.py:22-45. A nonlinear term 0 or None is [], a single one a list of one; a linear block 0 is None
      (lines 106-107). A right hand side is None, the int 0 or a column vector. *)
  Inductive rhs := BNone | BZero | BVec (v : local).
  Record nls := mkNls { tests : list form; unknowns : list form; blocks : list (list (option lmat));
                        terms : list (list mdm); bs : list rhs }.
  (** main.py:51-61, 89-121, 139-180: what the constructor asserts (len(b) is not checked there: evaluate_f raises
      an IndexError when b is too short) *)
  Definition nls_ok (s : nls) : bool :=
    forallb (fun tv => negb (mem tv (unknowns s))) (tests s)
    && (length (blocks s) =? length (tests s))
    && forallb (fun row => length row =? length (unknowns s)) (blocks s)
    && (length (terms s) =? length (tests s))
    && forallb (fun i => forallb (fun m =>
         inhomogeneous m && mem (nth i (tests s) 0) (cor m)
         && forallb (fun f => (f =? nth i (tests s) 0) || mem f (unknowns s)) (cor m)) (nth i (terms s) []))
       (seq 0 (length (tests s))).

  (** nonlinear_terms[i], A[i][j] and b[i] *)
  Definition term_row (s : nls) (i : nat) : list mdm := nth i (terms s) [].
  Definition block (s : nls) (i j : nat) : option lmat := nth j (nth i (blocks s) []) None.

  (** a list of options, None if one of them is *)
  Fixpoint sequence {A} (l : list (option A)) : option (list A) :=
    match l with
    | [] => Some []
    | Some a :: l' => option_map (cons a) (sequence l')
    | None :: _ => None
    end.

  (** a summand of f[i]: EWC vectors and the int 0 *)
  Inductive summand := SVec (v : local) | SZero.
  (** Aij @ shadow: the local matrix times the local cochain *)
  Definition mat_apply (n : nat) (M : lmat) (c : local) : local :=
    fun e r => bsum (seq 0 n) (fun k => rmul (M e r k) (c e k)).
  (** EWC_ColumnVector.__neg__ *)
  Definition lneg (v : local) : local := fun e r => ropp (v e r).
  Definition ladd (v w : local) : local := fun e r => radd (v e r) (w e r).
  (** do.py:53-68: f[i][0], f[i][0] + f[i][1] or f[i][0].___PRIVATE_sum___(f[i][1:]). An EWC vector plus the int 0 is
      a TypeError, an int has no ___PRIVATE_sum___ (columnVector/main.py:__add__); the int 0 alone stays what it is
      until concatenate rejects it *)
  Definition sum_up (l : list summand) : option local :=
    match sequence (map (fun x => match x with SVec v => Some v | SZero => None end) l) with
    | Some (v :: vs) => Some (fold_left ladd vs v)
    | _ => None
    end.
  (** nonliner_terms.py:75-87: the pairs; [x] are the cochains of the shadows in the order of the unknowns *)
  Definition the_pairs (s : nls) (x : list local) : list (form * local) := combine (unknowns s) x.
  (** do.py:16-78, nonliner_terms.py:71-107; a term that evaluates to a number is a summand EWC objects reject *)
  Definition evaluate_fi (s : nls) (x : list local) (i : nat) : option local :=
    let lin := flat_map (fun j => match block s i j with
                                  | None => []
                                  | Some M => [SVec (mat_apply (nb (nth j (unknowns s) 0)) M (nth j x (fun _ _ => r0)))]
                                  end) (seq 0 (length (unknowns s))) in
    match sequence (map (fun m => match evaluate [] m (the_pairs s x) with
                                  | Some (EVec v) => Some (SVec v)
                                  | _ => None end) (term_row s i)) with
    | None => None
    | Some nl =>
        match nth_error (bs s) i with
        | None => None
        | Some b =>
            sum_up (lin ++ nl ++ match b with BNone => [] | BZero => [SZero] | BVec v => [SVec (lneg v)] end)
        end
    end.
  Definition evaluate_f (s : nls) (x : list local) (neg : bool) : option (list local) :=
    option_map (map (fun v => if neg then lneg v else v))
      (sequence (map (evaluate_fi s x) (seq 0 (length (tests s))))).

  (** regular.py:127-180: block (i, j) of the matrix of the linear system. None: an exception; Some None: an empty
      block. [x] as above. *)
  Definition madd (M N : lmat) : lmat := fun e r c => radd (M e r c) (N e r c).
  Definition lhs_block (s : nls) (x : list local) (i j : nat) : option (option lmat) :=
    let tv := nth i (tests s) 0 in
    let uv := nth j (unknowns s) 0 in
    let known := filter (fun p => negb (fst p =? uv)) (the_pairs s x) in
    match sequence (map (fun m => derivative_contribution_to m tv uv known) (term_row s i)) with
    | None => None
    | Some cs =>
        let l := (match block s i j with None => [] | Some M => [M] end)
                 ++ flat_map (fun c => match c with None => [] | Some (_, _, M) => [M] end) cs in
        match l with
        | [] => Some None
        | M :: Ms => Some (Some (fold_left madd Ms M))
        end
    end.
  Definition lhs (s : nls) (x : list local) : option (list (list (option lmat))) :=
    sequence (map (fun i => sequence (map (lhs_block s x i) (seq 0 (length (unknowns s)))))
                  (seq 0 (length (tests s)))).

  (** * the assembled system. [els]: the elements (of all cores); [gt i e r], [gu j e r]: the global number of the
      local dof r of the i-th test, j-th unknown variable in the chained gathering matrix (C23, C24) *)
  Variables (els : list nat) (gt gu : nat -> nat -> nat -> nat).
  (** locallyFull/do.py:12-101 for the shadows of the unknowns: the entries the chained gathering matrix points to *)
  Definition distribute (s : nls) (x : nat -> K) : list local :=
    map (fun j => fun e r => x (gu j e r)) (seq 0 (length (unknowns s))).
  (** concatenate and bmat followed by the assemblers: entry R, entry (R, C) (C06, C18, C19) *)
  Definition assemble_v (s : nls) (f : list local) (R : nat) : K :=
    bsum els (fun e => bsum (seq 0 (length (tests s))) (fun i =>
      bsum (seq 0 (nb (nth i (tests s) 0))) (fun r =>
        if gt i e r =? R then nth i f (fun _ _ => r0) e r else r0))).
  Definition assemble_m (s : nls) (A : list (list (option lmat))) (R C : nat) : K :=
    bsum els (fun e => bsum (seq 0 (length (tests s))) (fun i => bsum (seq 0 (length (unknowns s))) (fun j =>
      match nth j (nth i A []) None with
      | None => r0
      | Some M =>
          bsum (seq 0 (nb (nth i (tests s) 0))) (fun r => bsum (seq 0 (nb (nth j (unknowns s) 0))) (fun c =>
            if gt i e r =? R then if gu j e c =? C then M e r c else r0 else r0))
      end))).

  (** regular.py:182-233: the matrix and the vector the linear solver gets for the current xi; the rows in [fixed]
      customized (C20, C21) *)
  Definition newton_system (s : nls) (fixed : list nat) (x : nat -> K) : option ((nat -> nat -> K) * (nat -> K)) :=
    match lhs s (distribute s x), evaluate_f s (distribute s x) true with
    | Some A, Some f =>
        Some (fun R C => if mem R fixed then (if R =? C then r1 else r0) else assemble_m s A R C,
              fun R => if mem R fixed then r0 else assemble_v s f R)
    | _, _ => None
    end.
End Mdm.
