(** Model of components/assemblers.py and components/distributors.py. *)
From Coq Require Import List Arith ZArith Lia Bool.
From Verif Require Import Prelude RingSum.
Import ListNotations.

(** A value is produced only if every entry is (python: an exception propagates). *)
Fixpoint all_some {A} (l : list (option A)) : option (list A) :=
  match l with
  | [] => Some []
  | Some x :: l' => match all_some l' with Some r => Some (x :: r) | None => None end
  | None :: _ => None
  end.

(** np.max / max, np.min / min: ValueError on an empty argument. *)
Definition zmax (l : list Z) : option Z :=
  match l with [] => None | x :: l' => Some (fold_left Z.max l' x) end.
Definition zmin (l : list Z) : option Z :=
  match l with [] => None | x :: l' => Some (fold_left Z.min l' x) end.

(** components/assemblers.py:16-46 [___Pr_gathering_matrix_checker___]; [rows] are the index
    arrays [gathering[i] for i in indices]. Returns num_dofs; None = an exception. *)
Definition gathering_checker (rows : list (list Z)) : option Z :=
  match all_some (map zmax rows), all_some (map zmin rows) with
  | Some MAXs, Some MINs =>
      match zmax MAXs, zmin MINs with
      | Some MAX, Some MIN =>
          if (MIN =? 0)%Z && (Z.of_nat (length (nodup Z.eq_dec (concat rows))) =? MAX + 1)%Z
          then Some (MAX + 1)%Z else None
      | _, _ => None
      end
  | _, _ => None
  end.

Section NumpyIndexing.
  Context {A : Type}.

  (** [arr[i]] for an integer i; IndexError = None. numpy's wrap-around for negative i is not
      modelled: the constructors reject gatherings with negative entries. *)
  Definition np_get (arr : list A) (i : Z) : option A :=
    if (0 <=? i)%Z then nth_error arr (Z.to_nat i) else None.

  (** [arr[i] = x] *)
  Definition np_set (arr : list A) (i : Z) (x : A) : option (list A) :=
    if (0 <=? i)%Z && (i <? Z.of_nat (length arr))%Z then Some (update arr (Z.to_nat i) x) else None.

  (** [arr[idx]] for an index array: a copy (numpy fancy indexing). *)
  Definition np_take (arr : list A) (idx : list Z) : option (list A) :=
    all_some (map (np_get arr) idx).

  (** numpy broadcasting of a right hand side of shape (m,) to shape (n,). *)
  Definition np_broadcast (vals : list A) (n : nat) : option (list A) :=
    if length vals =? n then Some vals
    else match vals with [x] => Some (repeat x n) | _ => None end.

  (** [arr[idx] = vals]: writes in order, so for repeated indices the last one wins. *)
  Fixpoint np_put_list (arr : list A) (ws : list (Z * A)) : option (list A) :=
    match ws with
    | [] => Some arr
    | (i, x) :: ws' => match np_set arr i x with Some arr' => np_put_list arr' ws' | None => None end
    end.
  Definition np_put (arr : list A) (idx : list Z) (vals : list A) : option (list A) :=
    match np_broadcast vals (length idx) with
    | Some v => np_put_list arr (combine idx v)
    | None => None
    end.
End NumpyIndexing.

Inductive amode := Replace | Add | OtherMode.
Inductive mformat := FArray | FCsc | FCsr | OtherFormat.

Section Assemblers.
  (** Keys of the gathering dict (or list positions), and python's == on them. *)
  Variable Key : Type.
  Variable keqb : Key -> Key -> bool.
  Variable K : CRing.

  (** [arr[idx] += vals]: python evaluates [arr[idx]], adds (with broadcasting) and then
      assigns [arr[idx] = ...]. *)
  Definition np_iadd (arr : list K) (idx : list Z) (vals : list K) : option (list K) :=
    match np_take arr idx, np_broadcast vals (length idx) with
    | Some old, Some v => np_put arr idx (map (fun p => radd (fst p) (snd p)) (combine old v))
    | _, _ => None
    end.

  (** One loop body of components/assemblers.py:103-111. *)
  Definition vstep (m : amode) (out : list K) (g : list Z) (v : list K) : option (list K) :=
    match m with
    | Replace => np_put out g v
    | Add => np_iadd out g v
    | OtherMode => None
    end.

  (** components/assemblers.py:104-108: the loop over [indices]; [TBA[i]] is a dict lookup,
      [GM[i]] is the item of the dict being iterated over. *)
  Fixpoint vloop (m : amode) (G : list (Key * list Z)) (TBA : list (Key * list K)) (out : list K)
    : option (list K) :=
    match G with
    | [] => Some out
    | (k, g) :: G' =>
        match lookup keqb k TBA with
        | Some v => match vstep m out g v with Some out' => vloop m G' TBA out' | None => None end
        | None => None
        end
    end.

  (** components/assemblers.py:55-112 [VectorAssembler(gathering)(TBA, mode)], scheme 1. *)
  Definition VectorAssembler (G : list (Key * list Z)) (m : amode) (TBA : list (Key * list K))
    : option (list K) :=
    match gathering_checker (map snd G) with
    | Some n => if length TBA =? length G
                then vloop m G TBA (repeat r0 (Z.to_nat n)) else None
    | None => None
    end.

  (** components/distributors.py:33-61 [VectorDistributor(gathering)(TBD)], scheme 1. *)
  Definition VectorDistributor (G : list (Key * list Z)) (TBD : list K)
    : option (list (Key * list K)) :=
    match gathering_checker (map snd G) with
    | Some n => if (Z.of_nat (length TBD) =? n)%Z
                then all_some (map (fun kg => option_map (pair (fst kg)) (np_take TBD (snd kg))) G)
                else None
    | None => None
    end.

  (** components/assemblers.py:184-193: [for j, m in enumerate(g0): output[m, g1] (+)= data[j, :]];
      a row of the dense output is a list. *)
  Fixpoint mrows (m : amode) (g0 : list Z) (g1 : list Z) (data : list (list K)) (out : list (list K))
    : option (list (list K)) :=
    match g0 with
    | [] => match m with OtherMode => None | _ => Some out end
    | r :: g0' =>
        match data with
        | [] => None
        | d :: data' =>
            match np_get out r with
            | Some row =>
                match vstep m row g1 d with
                | Some row' => match np_set out r row' with
                               | Some out' => mrows m g0' g1 data' out'
                               | None => None end
                | None => None end
            | None => None end
        end
    end.

  (** components/assemblers.py:177-193 *)
  Fixpoint mloop (m : amode) (G0 : list (Key * list Z)) (G1 : list (Key * list Z))
    (TBA : list (Key * list (list K))) (out : list (list K)) : option (list (list K)) :=
    match G0 with
    | [] => Some out
    | (k, g0) :: G0' =>
        match lookup keqb k G1, lookup keqb k TBA with
        | Some g1, Some d => match mrows m g0 g1 d out with
                             | Some out' => mloop m G0' G1 TBA out' | None => None end
        | _, _ => None
        end
    end.

  (** components/assemblers.py:121-193: constructor and dense assembly. The checker runs on
      [G1[i] for i in G0.keys()]. *)
  Definition massemble (G0 G1 : list (Key * list Z)) (m : amode) (TBA : list (Key * list (list K)))
    : option (list (list K)) :=
    match gathering_checker (map snd G0),
          all_some (map (fun kg => lookup keqb (fst kg) G1) G0) with
    | Some n0, Some rows1 =>
        match gathering_checker rows1 with
        | Some n1 =>
            if (length G0 =? length G1) && (length TBA =? length G0)
            then mloop m G0 G1 TBA (repeat (repeat r0 (Z.to_nat n1)) (Z.to_nat n0))
            else None
        | None => None
        end
    | _, _ => None
    end.

  (** scipy matrices: [CSR rows] holds per row the (column, value) pairs, [CSC cols] per column
      the (row, value) pairs (the indptr array is the list structure). *)
  Inductive sparse :=
  | Dense (rows : list (list K))
  | CSR (ncols : nat) (rows : list (list (nat * K)))
  | CSC (nrows : nat) (cols : list (list (nat * K))).

  Variable is0 : K -> bool.  (** the test [x != 0] of scipy's dense to sparse conversion *)

  (** scipy [csr_matrix(dense)] *)
  Definition csr_of_dense (ncols : nat) (out : list (list K)) : sparse :=
    CSR ncols (map (fun row => filter (fun p => negb (is0 (snd p))) (combine (seq 0 (length row)) row)) out).

  (** scipy [.T] of a csr matrix: the same arrays read as csc with swapped shape. *)
  Definition transpose (s : sparse) : sparse :=
    match s with
    | CSR c rows => CSC c rows
    | CSC r cols => CSR r cols
    | Dense rows => Dense rows
    end.

  (** components/assemblers.py:195-202 *)
  Definition mformat_out (f : mformat) (ncols : nat) (out : list (list K)) : option sparse :=
    match f with
    | FArray => Some (Dense out)
    | FCsc => Some (transpose (csr_of_dense ncols out))
    | FCsr => Some (csr_of_dense ncols out)
    | OtherFormat => None
    end.

  (** components/assemblers.py:121-205 [MatrixAssembler(G0, G1)(TBA, mode, format)] *)
  Definition MatrixAssembler (G0 G1 : list (Key * list Z)) (m : amode) (f : mformat)
    (TBA : list (Key * list (list K))) : option sparse :=
    match massemble G0 G1 m TBA with
    | Some out => mformat_out f (length (hd [] out)) out
    | None => None
    end.
End Assemblers.

(** The entry (i, j) of a scipy matrix according to its format. *)
Definition entry {K : CRing} (s : sparse K) (i j : nat) : K :=
  match s with
  | Dense _ rows => nth j (nth i rows []) r0
  | CSR _ _ rows => bsum (nth i rows []) (fun p => if fst p =? j then snd p else r0)
  | CSC _ _ cols => bsum (nth j cols []) (fun p => if fst p =? i then snd p else r0)
  end.
Definition shape {K : CRing} (s : sparse K) : nat * nat :=
  match s with
  | Dense _ rows => (length rows, length (hd [] rows))
  | CSR _ c rows => (length rows, c)
  | CSC _ r cols => (r, length cols)
  end.
