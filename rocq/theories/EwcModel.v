(** Model of the element-wise cached (EWC) matrices and vectors:
    tools/elementwiseCache/dataStructures/objects/sparseMatrix/main.py (EWC_SparseMatrix),
    .../columnVector/main.py (EWC_ColumnVector, the same caching code), their helpers/ and the key
    generators of operators/bmat and operators/concatenate.

    Simplifications. Keys (python str) are lists of characters. Local matrices are values of an
    abstract type V (the caching code never looks inside); the mutation of returned scipy objects by
    callers is not modelled. Meshes are reduced to the list of local elements. *)
From Coq Require Import List Arith Bool.
From Coq Require Ascii String.
Import (notations) String.
From Verif Require Import Prelude AssembleModel.
Import ListNotations.

Definition key := list Ascii.ascii.
Definition of_str (s : String.string) : key := String.list_ascii_of_string s.

(** sparseMatrix/main.py:197-198 *)
Definition CT : key := of_str ">CT<"%string.
Definition NC : key := of_str ">NC<"%string.

Fixpoint keyb (a b : key) : bool :=
  match a, b with
  | [], [] => true
  | x :: a', y :: b' => Ascii.eqb x y && keyb a' b'
  | _, _ => false
  end.

(** [s.startswith(p)] *)
Fixpoint starts (p s : key) : bool :=
  match p, s with
  | [], _ => true
  | _, [] => false
  | x :: p', y :: s' => Ascii.eqb x y && starts p' s'
  end.

(** [p in s] *)
Definition infix (p s : key) : bool := existsb (fun q => starts p (skipn q s)) (seq 0 (S (length s))).

(** sparseMatrix/main.py:418-420: temp = (ck + ck).find(ck, 1, -1); ck[:temp], or the empty string.
    With L = len(ck) the occurrences inside [1, 2L-1) start at 1 .. L-1. *)
Definition repeat_of (ck : key) : key :=
  match find (fun q => starts ck (skipn q (ck ++ ck))) (seq 1 (length ck - 1)) with
  | Some temp => firstn temp ck
  | None => []
  end.

(** how an object makes its keys from those of its operands *)
Inductive style :=
| KConcat      (** operator helpers: matmul/add/sub/vecmul/Psum concatenate, the unary ones reuse _KG_ *)
| KFirstTwice  (** columnVector/helpers/add.py:17 and sub.py:17 *)
| KBlock.      (** operators/bmat/sparse_matrix/helpers/KG.py, operators/concatenate/.../KG.py *)

Section Ewc.
  Variables V W CUS : Type.           (** local data, the outside world, customizations *)
  Variable apply : CUS -> V -> option V.

  (** An object is created by giving generators (Leaf; the data generator may read the world, e.g. the
      cochain of a form) or by an operator applied to earlier objects. *)
  Inductive node :=
  | Leaf (KG : nat -> key) (DG : W -> nat -> V)
  | Op (st : style) (f : list V -> V) (args : list nat).

  (** sparseMatrix/main.py:193-215 and, for KBlock, bmat/.../KG.py:8-13 *)
  Record ost := mkO {
    is_nc : bool; is_ct : bool; ct_dg : option V; chk : bool; rep : key; cache : list (key * V);
    kchk : bool; kct : bool; knc : bool;
    cus : list (nat * list CUS) }.
  Definition ost0 : ost := mkO false false None true [] [] true false false [].

  Definition heap := nat -> ost.
  Definition hset (h : heap) (n : nat) (o : ost) : heap := fun m => if m =? n then o else h m.

  Variable prog : list node.
  Variable elements : list nat.

  Definition member (i : nat) : bool := existsb (Nat.eqb i) elements.

  (** keys of several objects, concatenated in order *)
  Fixpoint kgs (kg : heap -> nat -> nat -> key * heap) (h : heap) (args : list nat) (i : nat) : key * heap :=
    match args with
    | [] => ([], h)
    | a :: args' => let (k, h1) := kg h a i in let (ks, h2) := kgs kg h1 args' i in (k ++ ks, h2)
    end.

  (** [_KG_(item)]; [fuel] bounds the nesting of objects *)
  Fixpoint kg (fuel : nat) (h : heap) (n i : nat) : key * heap :=
    match fuel with
    | 0 => ([], h)
    | S fuel' =>
      match nth_error prog n with
      | None => ([], h)
      | Some (Leaf KG _) => (KG i, h)
      | Some (Op KConcat _ args) => kgs (kg fuel') h args i
      | Some (Op KFirstTwice _ args) =>
          match args with [] => ([], h) | a :: _ => kgs (kg fuel') h [a; a] i end
      | Some (Op KBlock _ args) =>
          let h1 :=
            if kchk (h n) then
              let (key_out, h') := kgs (kg fuel') h args i in
              let o := h' n in
              if infix NC key_out
              then hset h' n (mkO (is_nc o) (is_ct o) (ct_dg o) (chk o) (rep o) (cache o) false (kct o) true (cus o))
              else if keyb (repeat_of key_out) CT
              then hset h' n (mkO (is_nc o) (is_ct o) (ct_dg o) (chk o) (rep o) (cache o) false true (knc o) (cus o))
              else hset h' n (mkO (is_nc o) (is_ct o) (ct_dg o) (chk o) (rep o) (cache o) false (kct o) (knc o) (cus o))
            else h in
          if kct (h1 n) then (CT, h1)
          else if knc (h1 n) then (NC, h1)
          else kgs (kg fuel') h1 args i
      end
    end.

  Fixpoint gets (get : heap -> nat -> nat -> option V * heap) (h : heap) (args : list nat) (i : nat)
    : option (list V) * heap :=
    match args with
    | [] => (Some [], h)
    | a :: args' =>
        match get h a i with
        | (None, h1) => (None, h1)
        | (Some v, h1) =>
            match gets get h1 args' i with
            | (None, h2) => (None, h2)
            | (Some vs, h2) => (Some (v :: vs), h2)
            end
        end
    end.

  (** sparseMatrix/customize.py:41-108 *)
  Fixpoint apply_all (cs : list CUS) (v : V) : option V :=
    match cs with
    | [] => Some v
    | c :: cs' => match apply c v with Some v' => apply_all cs' v' | None => None end
    end.
  Definition execute_customization (o : ost) (v : V) (e : nat) : option V :=
    match lookup Nat.eqb e (cus o) with None => Some v | Some cs => apply_all cs v end.

  Definition set_chk (o : ost) (ck : key) : ost :=
    mkO (is_nc o) (is_ct o) (ct_dg o) false
        (if infix CT ck then (if keyb (repeat_of ck) [] then rep o else repeat_of ck) else rep o)
        (cache o) (kchk o) (kct o) (knc o) (cus o).
  Definition set_ct (o : ost) (v : V) : ost :=
    mkO (is_nc o) true (Some v) (chk o) (rep o) (cache o) (kchk o) (kct o) (knc o) (cus o).
  Definition set_nc (o : ost) : ost :=
    mkO true (is_ct o) (ct_dg o) (chk o) (rep o) (cache o) (kchk o) (kct o) (knc o) (cus o).
  Definition set_cache (o : ost) (k : key) (v : V) : ost :=
    mkO (is_nc o) (is_ct o) (ct_dg o) (chk o) (rep o) ((k, v) :: cache o) (kchk o) (kct o) (knc o) (cus o).

  (** sparseMatrix/main.py:404-451 [__getitem__] at world w; columnVector/main.py:283-336 is the same.
      None: an exception. *)
  Fixpoint getitem (fuel : nat) (w : W) (h : heap) (n i : nat) : option V * heap :=
    match fuel with
    | 0 => (None, h)
    | S fuel' =>
      let dg := fun h : heap =>
        match nth_error prog n with
        | None => (None, h)
        | Some (Leaf _ DG) => (Some (DG w i), h)
        | Some (Op _ f args) =>
            match gets (getitem fuel' w) h args i with
            | (Some vs, h') => (Some (f vs), h')
            | (None, h') => (None, h')
            end
        end in
      if negb (member i) then (None, h)
      else
        let '(RETURN, h1) :=
          if is_nc (h n) then dg h
          else if is_ct (h n) then (ct_dg (h n), h)
          else
            let (ck, h1) := kg fuel h n i in
            let h2 := if chk (h1 n) then hset h1 n (set_chk (h1 n) ck) else h1 in
            if keyb ck CT || keyb (rep (h2 n)) CT then
              match ct_dg (h2 n) with
              | Some _ => (None, h2)
              | None => match dg h2 with
                        | (Some v, h3) => (Some v, hset h3 n (set_ct (h3 n) v))
                        | (None, h3) => (None, h3)
                        end
              end
            else if infix NC ck then
              match dg h2 with
              | (Some v, h3) => (Some v, hset h3 n (set_nc (h3 n)))
              | (None, h3) => (None, h3)
              end
            else
              match lookup keyb ck (cache (h2 n)) with
              | Some v => (Some v, h2)
              | None => match dg h2 with
                        | (Some v, h3) => (Some v, hset h3 n (set_cache (h3 n) ck v))
                        | (None, h3) => (None, h3)
                        end
              end in
        match RETURN with
        | None => (None, h1)
        | Some v => (execute_customization (h1 n) v i, h1)
        end
    end.

  (** the registering code of customize.py: [if e not in d: d[e] = list()]; [d[e].append(c)] *)
  Fixpoint register (d : list (nat * list CUS)) (e : nat) (c : CUS) : list (nat * list CUS) :=
    match d with
    | [] => [(e, [c])]
    | (e', cs) :: d' => if e' =? e then (e', cs ++ [c]) :: d' else (e', cs) :: register d' e c
    end.
  Definition set_cus (o : ost) (d : list (nat * list CUS)) : ost :=
    mkO (is_nc o) (is_ct o) (ct_dg o) (chk o) (rep o) (cache o) (kchk o) (kct o) (knc o) d.

  (** what a program does with its objects; the world may be another one at every access *)
  Inductive event :=
  | Access (w : W) (n i : nat)
  | Customize (n e : nat) (c : CUS)
  | Clear (n : nat).   (** customize.py:23-25 *)

  Definition step (h : heap) (ev : event) : heap :=
    match ev with
    | Access w n i => snd (getitem (S n) w h n i)
    | Customize n e c => hset h n (set_cus (h n) (register (cus (h n)) e c))
    | Clear n => hset h n (set_cus (h n) [])
    end.
  Definition run (evs : list event) : heap := fold_left step evs (fun _ => ost0).

  (** M[i] after a history *)
  Definition access (evs : list event) (w : W) (n i : nat) : option V := fst (getitem (S n) w (run evs) n i).
End Ewc.

Arguments Leaf {V W} KG DG. Arguments Op {V W} st f args.
Arguments Access {W CUS} w n i. Arguments Customize {W CUS} n e c. Arguments Clear {W CUS} n.

(** * the customizations of matrices, sparseMatrix/customize.py:62-98; a local matrix is its shape and
      its entries. Indices are numpy indices: IndexError outside [-n, n). *)
Section Cus.
  Variable T : Type.
  Variables zero one : T.
  Record lmat := mkL { nrow : nat; ncol : nat; ent : nat -> nat -> T }.
  Inductive cusop :=
  | clr (r : nat)                       (** RETURN[r, :] = 0 *)
  | clrs (rs : list nat)
  | salv (i j : nat) (v : T)            (** RETURN[i, j] = v *)
  | ilrs (rs : list nat)                (** RETURN[rs, :] = 0; RETURN[rs, rs] = 1 *)
  | ilrsac (rs cs : list nat).          (** RETURN[rs, :] = 0; RETURN[rs, cs] = 1 *)

  Definition zero_rows (rs : list nat) (M : lmat) : option lmat :=
    if forallb (fun r => r <? nrow M) rs
    then Some (mkL (nrow M) (ncol M) (fun i j => if existsb (Nat.eqb i) rs then zero else ent M i j))
    else None.
  Definition set_ent (i j : nat) (v : T) (M : lmat) : option lmat :=
    if (i <? nrow M) && (j <? ncol M)
    then Some (mkL (nrow M) (ncol M) (fun a b => if (a =? i) && (b =? j) then v else ent M a b))
    else None.
  (** RETURN[rs, cs] = 1: pairwise; shapes must agree *)
  Fixpoint set_ents (ps : list (nat * nat)) (v : T) (M : lmat) : option lmat :=
    match ps with
    | [] => Some M
    | (i, j) :: ps' => match set_ent i j v M with Some M' => set_ents ps' v M' | None => None end
    end.
  Definition apply_cusop (c : cusop) (M : lmat) : option lmat :=
    match c with
    | clr r => zero_rows [r] M
    | clrs rs => zero_rows rs M
    | salv i j v => set_ent i j v M
    | ilrs rs => match zero_rows rs M with Some M' => set_ents (combine rs rs) one M' | None => None end
    | ilrsac rs cs =>
        if length rs =? length cs
        then match zero_rows rs M with Some M' => set_ents (combine rs cs) one M' | None => None end
        else None
    end.

  (** * the customizations of vectors, columnVector/customize.py:37-119 *)
  Inductive vcusop :=
  | cletr (i : nat)
  | slet (i : nat) (v : T)
  | slest (is : list nat) (vs : list T).

  (** columnVector/customize.py:64-69: indices without repetition, the last value wins *)
  Fixpoint renew (iv : list (nat * T)) (i : nat) (v : T) : list (nat * T) :=
    match iv with
    | [] => [(i, v)]
    | (j, x) :: iv' => if j =? i then (j, v) :: iv' else (j, x) :: renew iv' i v
    end.
  Definition renew_cus (iv : list (nat * T)) (c : vcusop) : list (nat * T) :=
    match c with
    | cletr i => renew iv i zero
    | slet i v => renew iv i v
    | slest is vs => fold_left (fun iv p => renew iv (fst p) (snd p)) (combine is vs) iv
    end.
  (** columnVector/customize.py:33-35, 37-96: pending customizations are merged into those to be
      applied, then forgotten. *)
  Definition vstate : Type := list (nat * list vcusop) * list (nat * list (nat * T)).
  Definition dget {X} (d : list (nat * list X)) (e : nat) : list X :=
    match lookup Nat.eqb e d with Some l => l | None => [] end.
  Fixpoint dput {X} (d : list (nat * X)) (e : nat) (x : X) : list (nat * X) :=
    match d with
    | [] => [(e, x)]
    | (e', x') :: d' => if e' =? e then (e', x) :: d' else (e', x') :: dput d' e x
    end.
  Definition sent_to_applying (s : vstate) : vstate :=
    ([], fold_left (fun ap ec => dput ap (fst ec) (fold_left renew_cus (snd ec) (dget ap (fst ec)))) (fst s) (snd s)).

  (** columnVector/customize.py:98-119: RETURN[indices, 0] = values *)
  Record lvec := mkV { vlen : nat; vent : nat -> T }.
  Definition vset (i : nat) (v : T) (x : lvec) : option lvec :=
    if i <? vlen x then Some (mkV (vlen x) (fun a => if a =? i then v else vent x a)) else None.
  Fixpoint vsets (iv : list (nat * T)) (x : lvec) : option lvec :=
    match iv with
    | [] => Some x
    | (i, v) :: iv' => match vset i v x with Some x' => vsets iv' x' | None => None end
    end.
  Definition vexecute (s : vstate) (x : lvec) (e : nat) : option lvec * vstate :=
    let s' := sent_to_applying s in
    (match lookup Nat.eqb e (snd s') with None => Some x | Some iv => vsets iv x end, s').

  Inductive vevent := VCustomize (e : nat) (c : vcusop) | VAccess (e : nat) | VClear.
  Definition vstep (s : vstate) (ev : vevent) : vstate :=
    match ev with
    | VCustomize e c => (register _ (fst s) e c, snd s)
    | VAccess _ => sent_to_applying s
    | VClear => ([], [])
    end.
End Cus.
Arguments clr {T}. Arguments clrs {T}. Arguments salv {T}. Arguments ilrs {T}. Arguments ilrsac {T}.
Arguments cletr {T}. Arguments slet {T}. Arguments slest {T}.
