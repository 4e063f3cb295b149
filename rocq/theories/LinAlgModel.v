(** Model of the distributed matrices and vectors of tools/miLinearAlgebra/dataStructures:
    globalMatrix/{main,do,whether,helpers/split_A}.py, vectors/{GLOBAL,distributed}/{main,do,whether}.py.
    A distributed object is the function giving the part stored by each core r < SIZE; the master is core 0.
    Entries are elements of a commutative ring. *)
From Coq Require Import List Arith ZArith Bool.
From Verif Require Import Prelude RingSum AssembleModel EwcModel AsmModel.
Import ListNotations.

(** * helpers/split_A.py:4-25 *)
(** the loop of lines 16-20; [i] is the index enumerate has reached, [thr] the variable [__] *)
Fixpoint split_loop (factor i thr : nat) (l : list nat) : list nat :=
  match l with
  | [] => []
  | ind :: l' => if thr <=? ind then i :: split_loop factor (S i) (thr + factor) l'
                 else split_loop factor (S i) thr l'
  end.
Definition split_A (indptr : list nat) (factor PS : nat) : option (nat * list nat) :=
  if length indptr =? PS + 1 then
    let cuts := split_loop factor 0 factor indptr in
    let SL := 0 :: cuts in
    let ST := length cuts in
    let '(ST, SL) := if last SL 0 =? PS then (ST, SL) else (ST + 1, SL ++ [PS]) in
    if (1 <=? ST) && (ST =? length SL - 1) then Some (ST, SL) else None
  else None.

Section LinAlg.
  Variable K : CRing.

  Definition indptr (lines : list (list (nat * K))) : list nat :=
    map (fun i => sum (map (@length _) (firstn i lines))) (seq 0 (S (length lines))).
  (** number of stored entries; None: not csr or csc *)
  Definition nnz (M : sparse K) : nat :=
    match M with
    | CSR _ _ rows => length (concat rows)
    | CSC _ _ cols => length (concat cols)
    | Dense _ rows => length (concat rows)
    end.
  Definition slice {A} (a b : nat) (l : list A) : list A := firstn (b - a) (skipn a l).

  (** do.py:79-104: the pieces a core sends; None: the raise of lines 88 and 102. A slice of a matrix keeps
      its format. *)
  Definition send_pieces (factor : nat) (M : sparse K) : option (list (sparse K)) :=
    if nnz M <=? factor then Some [M]
    else
      match M with
      | CSR _ nc rows =>
          match split_A (indptr rows) factor (length rows) with
          | Some (ST, SL) =>
              if ST =? 1 then Some [M]
              else Some (map (fun t => CSR K nc (slice (nth t SL 0) (nth (S t) SL 0) rows)) (seq 0 ST))
          | None => None
          end
      | CSC _ nr cols =>
          match split_A (indptr cols) factor (length cols) with
          | Some (ST, SL) =>
              if ST =? 1 then Some [M]
              else Some (map (fun t => CSC K nr (slice (nth t SL 0) (nth (S t) SL 0) cols)) (seq 0 ST))
          | None => None
          end
      | Dense _ _ => None
      end.

  Definition view (M : sparse K) : lmat K := mkL K (fst (shape M)) (snd (shape M)) (entry M).
  (** scipy adds matrices of equal shape only *)
  Definition madd (A B : lmat K) : option (lmat K) :=
    if (nrow K A =? nrow K B) && (ncol K A =? ncol K B)
    then Some (mkL K (nrow K A) (ncol K A) (fun i j => radd (ent K A i j) (ent K B i j))) else None.
  (** do.py:106-119: what the receiving core adds to its own matrix. scipy's vstack(L) is bmat([[x] for x in L]),
      hstack(L) is bmat([L]). *)
  Definition receive (csr : bool) (own : lmat K) (pieces : list (sparse K)) : option (lmat K) :=
    match pieces with
    | [M] => madd own (view M)
    | _ => match (if csr then bmat K (map (fun M => [Some (view M)]) pieces)
                  else bmat K [map (fun M => Some (view M)) pieces]) with
           | Some T => madd own T
           | None => None
           end
    end.
  Definition is_csr (M : sparse K) : bool := match M with CSR _ _ _ => true | _ => false end.
  Definition is_csc (M : sparse K) : bool := match M with CSC _ _ _ => true | _ => false end.

  (** * whether.py *)
  Inductive rdist := RFalse | RTrue | RRow | RColumn.
  Record GM := mkGM { part : nat -> sparse K; rd : rdist }.
  (** whether.py:20-41: the getter with its assertions, on all cores *)
  Definition rd_get (SIZE : nat) (A : GM) : option rdist :=
    if match rd A with
       | RFalse => true
       | RTrue => forallb (fun r => is_csr (part A r) || is_csc (part A r)) (seq 0 SIZE)
       | RRow => forallb (fun r => is_csr (part A r)) (seq 0 SIZE)
       | RColumn => forallb (fun r => is_csc (part A r)) (seq 0 SIZE)
       end then Some (rd A) else None.
  Definition truthy (x : rdist) : bool := match x with RFalse => false | _ => true end.
  (** whether.py:54-64 *)
  Definition master_dominating (SIZE : nat) (p : nat -> sparse K) : bool :=
    forallb (fun r => (r =? 0) || (nnz (p r) =? 0)) (seq 0 SIZE).

  (** the product of two local matrices with inner dimension n *)
  Definition mm (n : nat) (A B : nat -> nat -> K) : nat -> nat -> K :=
    fun i j => bsum (seq 0 n) (fun k => rmul (A i k) (B k j)).
  Definition mzero : nat -> nat -> K := fun _ _ => r0.

  (** * main.py:165-190 and 281-312: GlobalMatrix @ GlobalMatrix, n = A.shape[1]; the local products by entries *)
  Definition matmul (SIZE n : nat) (A B : GM) : option (nat -> nat -> nat -> K) :=
    if master_dominating SIZE (part A) && master_dominating SIZE (part B)
    then Some (fun r => if r =? 0 then mm n (entry (part A 0)) (entry (part B 0)) else mzero)
    else
      match rd_get SIZE A with
      | None => None
      | Some ra =>
          if truthy ra
          then Some (fun r => fold_left (fun C i => gplus K C (mm n (entry (part A r)) (entry (part B i)))) (seq 0 SIZE) mzero)
          else match rd_get SIZE B with
               | None => None
               | Some rb =>
                   if truthy rb
                   then Some (fun r => fold_left (fun C i => gplus K C (mm n (entry (part A i)) (entry (part B r)))) (seq 0 SIZE) mzero)
                   else None
               end
      end.

  (** * vectors *)
  (** a csc column as its (index, value) pairs *)
  Definition col := list (nat * K).
  Definition centry (c : col) (i : nat) : K := bsum c (fun p => if fst p =? i then snd p else r0).

  (** vectors/GLOBAL/do.py:14-30, on the core gathered to *)
  Definition gather_global (SIZE : nat) (v : nat -> col) (i : nat) : K := bsum (seq 0 SIZE) (fun r => centry (v r) i).

  (** main.py:86-97. csr: the sorted list of the different column indices. csc: [np.argwhere(_ is True)] for an
      array [_] is empty. None: the raise. *)
  Definition nonempty_columns (M : sparse K) : option (list nat) :=
    match M with
    | CSR _ nc rows => Some (filter (fun c => existsb (Nat.eqb c) (map fst (concat rows))) (seq 0 nc))
    | CSC _ _ _ => Some []
    | Dense _ _ => None
    end.
  (** main.py:99-110 *)
  Definition nonempty_rows (M : sparse K) : option (list nat) :=
    match M with
    | CSR _ _ _ => Some []
    | CSC _ nr cols => Some (filter (fun c => existsb (Nat.eqb c) (map fst (concat cols))) (seq 0 nr))
    | Dense _ _ => None
    end.
  (** main.py:314-337 followed by [A.M @ v]; [v] is the vector gathered to the master *)
  Definition distribute_vector (A : GM) (v : nat -> K) (r : nat) : option col :=
    match nonempty_columns (part A r) with
    | Some nec => Some (combine nec (map v nec))
    | None => None
    end.
  Definition matvec (n : nat) (M : nat -> nat -> K) (v : nat -> K) : nat -> K := fun i => bsum (seq 0 n) (fun k => rmul (M i k) (v k)).
  (** main.py:192-216, n = A.shape[1]: the result vector of each core; [v] is the gathered vector *)
  Definition matvec_gathered (SIZE n : nat) (A : GM) (v : nat -> K) : option (nat -> nat -> K) :=
    if master_dominating SIZE (part A)
    then Some (fun r => if r =? 0 then matvec n (entry (part A 0)) v else fun _ => r0)
    else match all_some (map (distribute_vector A v) (seq 0 SIZE)) with
         | Some vs => Some (fun r => matvec n (entry (part A r)) (centry (nth r vs [])))
         | None => None
         end.
  Definition matvec_global (SIZE n : nat) (A : GM) (v : nat -> col) : option (nat -> nat -> K) :=
    matvec_gathered SIZE n A (gather_global SIZE v).
  (** main.py:218-220: a vector every core has in full *)
  Definition matvec_full (n : nat) (A : GM) (v : nat -> K) : nat -> nat -> K := fun r => matvec n (entry (part A r)) v.

  (** * main.py:383-427 and do.py:15-31 *)
  Definition nonempty_lines (lines : list (list (nat * K))) : list nat :=
    filter (fun i => 0 <? length (nth i lines [])) (seq 0 (length lines)).
  Definition lines_of (M : sparse K) : list (list (nat * K)) :=
    match M with CSR _ _ rows => rows | CSC _ _ cols => cols | Dense _ _ => [] end.
  (** len(POOL) == L_her for a set POOL *)
  Definition no_common (ls : list (list nat)) : bool := length (nodup Nat.eq_dec (concat ls)) =? sum (map (@length nat) ls).
  (** None: some cores take part in the gather and others do not *)
  Definition check_row_major (SIZE : nat) (A : GM) : option bool :=
    if forallb (fun r => is_csr (part A r)) (seq 0 SIZE)
    then Some (no_common (map (fun r => nonempty_lines (lines_of (part A r))) (seq 0 SIZE)))
    else if forallb (fun r => negb (is_csr (part A r))) (seq 0 SIZE) then Some false else None.
  (** the value of a python object in a condition: a tuple of one element is true *)
  Inductive pyval := PBool (b : bool) | PTuple (l : list bool).
  Definition as_cond (v : pyval) : bool := match v with PBool b => b | PTuple [] => false | PTuple (_ :: _) => true end.
  Definition check_col_major (SIZE : nat) (A : GM) : option pyval :=
    if forallb (fun r => is_csc (part A r)) (seq 0 SIZE)
    then Some (PTuple [no_common (map (fun r => nonempty_lines (lines_of (part A r))) (seq 0 SIZE))])
    else if forallb (fun r => negb (is_csc (part A r))) (seq 0 SIZE) then Some (PBool false) else None.
  Definition claim_distribution_pattern (SIZE : nat) (A : GM) : option rdist :=
    match check_row_major SIZE A with
    | None => None
    | Some true => Some RRow
    | Some false =>
        match check_col_major SIZE A with
        | None => None
        | Some v => Some (if as_cond v then RColumn else RFalse)
        end
    end.

  (** * vectors/distributed/main.py:67-77: the check of the constructor. [measure[ind] += 1] counts an index
      repeated within one core once. *)
  Definition measure (SIZE : nat) (v : nat -> col) (i : nat) : nat :=
    length (filter (fun r => existsb (Nat.eqb i) (map fst (v r))) (seq 0 SIZE)).
  Definition distributed_check (SIZE n : nat) (v : nat -> col) : bool :=
    (0 <? n) && forallb (fun r => forallb (fun p => fst p <? n) (v r)) (seq 0 SIZE)
    && forallb (fun i => measure SIZE v i <=? 1) (seq 0 n).
  (** vectors/distributed/do.py:16-45, the value on the core gathered to *)
  Definition vmaster (SIZE : nat) (v : nat -> col) : bool :=
    forallb (fun r => (r =? 0) || (length (v r) =? 0)) (seq 0 SIZE).
  Definition put (V : nat -> K) (c : col) : nat -> K :=
    fold_left (fun V p i => if i =? fst p then snd p else V i) c V.
  Definition gather_distributed (SIZE core : nat) (v : nat -> col) : nat -> K :=
    if vmaster SIZE v then centry (v core)
    else fold_left put (map v (seq 1 (SIZE - 1))) (centry (v 0)).
  Definition matvec_distributed (SIZE n : nat) (A : GM) (v : nat -> col) : option (nat -> nat -> K) :=
    matvec_gathered SIZE n A (gather_distributed SIZE 0 v).
End LinAlg.
