(** Model of the time iterators: tools/iterators/base/main.py (Iterator: __call__, run, the setters of running_step, t
    and shut_down, append_outputs_to_RDF) and tools/iterators/simple.py (SimpleIterator).
    All cores do the same with the same outputs (the docstring of run demands it), so one core is modelled. Monitor,
    progress bar, cpu load, reports and the .mitr file are left out. The csv file is the table that was saved; that
    pandas reads back what it wrote is assumed. *)
From Coq Require Import List Arith ZArith Bool QArith Qround.
From Coq.Floats Require Import SpecFloat.
From Verif Require Import Prelude.
Import ListNotations.
Local Open Scope nat_scope.

(** what a solver may return as shut_down: 0/1/True/False, or a reason *)
Inductive shut_value := SBool (b : bool) | SStr (n : nat).
Record output (V : Type) := mkO { code : Z; shut : shut_value; message_ok : bool; values : V }.
Arguments mkO {V}. Arguments code {V}. Arguments shut {V}. Arguments message_ok {V}. Arguments values {V}.

Section Iter.
  Variables T V : Type.
  Variable add : T -> T -> T.
  Variable ltb : T -> T -> bool.

  Definition row := (T * T * V)%type.
  Definition table := list (nat * row).
  (** None in [reason]: None; Some None: ''; Some (Some n): the string n *)
  Record istate := mkI {
    running_step : nat; t : T; dt : T; shut_down_ : bool; reason : option (option nat); exit_code : Z;
    RDF : table; calls : list nat }.
  Inductive iresult := IDone (s : istate) | IRaised | IRunning.

  (** running_step in self.RDF.index *)
  Definition has_index (tb : table) (i : nat) : bool := existsb (fun p => fst p =? i) tb.
  (** RDF.loc[i] = r (pandas: overwrites the row or appends one) *)
  Definition set_row (tb : table) (i : nat) (r : row) : table :=
    if has_index tb i then map (fun p => if fst p =? i then (i, r) else p) tb else tb ++ [(i, r)].

  (** base/main.py:225-227, the getter's assertions; None: AssertionError *)
  Definition get_shut_down (s : istate) : option bool :=
    match shut_down_ s, reason s with
    | true, Some _ => Some true
    | false, None => Some false
    | _, _ => None
    end.
  (** base/main.py:229-252. A str sets reason and flag, and then fails [assert shut_down in (1, 0, True, False)];
      None: AssertionError *)
  Definition set_shut_down (v : shut_value) (s : istate) : option istate :=
    match v with
    | SStr n => None
    | SBool true => Some (mkI (running_step s) (t s) (dt s) true (Some None) (exit_code s) (RDF s) (calls s))
    | SBool false => match reason s with
                     | None => Some (mkI (running_step s) (t s) (dt s) false None (exit_code s) (RDF s) (calls s))
                     | Some _ => None
                     end
    end.

  Variable solver : T -> T -> output V.
  (** simple.py:___PRIVATE_update_dt___; any function of the old dt *)
  Variable update_dt : T -> T.
  Variable max_steps : nat.

  (** the body of the while loop, base/main.py:327-387; None: an assertion failed *)
  Definition body (s : istate) : option istate :=
    let pass := has_index (RDF s) (running_step s) in
    let d := dt s in
    let outs := if pass then None else Some (solver (t s) (add (t s) d)) in
    let s := if pass then s
             else mkI (running_step s) (t s) (update_dt (dt s)) (shut_down_ s) (reason s) (exit_code s) (RDF s) (calls s ++ [running_step s]) in
    let t' := add (t s) d in
    if negb (ltb (t s) t') then None (* the setter of t *)
    else
      let s := mkI (S (running_step s)) t' (dt s) (shut_down_ s) (reason s) (match outs with Some o => code o | None => 1%Z end) (RDF s) (calls s) in
      match set_shut_down (match outs with Some o => shut o | None => SBool false end) s with
      | None => None
      | Some s =>
          match outs with
          | None => Some s
          | Some o =>
              if message_ok o then
                Some (mkI (running_step s) (t s) (dt s) (shut_down_ s) (reason s) (exit_code s)
                        (set_row (RDF s) (running_step s - 1) (t s, dt s, values o)) (calls s))
              else None
          end
      end.
  (** while not self.shut_down and self.running_step <= self.max_steps *)
  Fixpoint run (fuel : nat) (s : istate) : iresult :=
    match get_shut_down s with
    | None => IRaised
    | Some true => IDone s
    | Some false =>
        if running_step s <=? max_steps then
          match fuel with
          | O => IRunning
          | S fuel' => match body s with None => IRaised | Some s' => run fuel' s' end
          end
        else IDone s
    end.

  Variables (t0 dt0 : T) (initial : V).
  (** __init__ and __call__ (base/main.py:52-53, 163-194); [file] is the saved table, None if there is no file *)
  Definition call (file : option table) : istate :=
    mkI 1 t0 dt0 false None 1%Z (match file with Some tb => tb | None => [(0, (t0, dt0, initial))] end) [].
  (** what may be found in the file: the table after some iterations of a run that was then killed or finished, the run
      having itself started from such a file (the table is saved after some of the iterations, monitor/do.py:auto_save,
      and at the end) *)
  Fixpoint iterations (k : nat) (s : istate) : option istate :=
    match k with
    | O => Some s
    | S k' => match iterations k' s with
              | None => None
              | Some s => match get_shut_down s with
                          | Some false => if running_step s <=? max_steps then body s else None
                          | _ => None
                          end
              end
    end.
  Inductive saved : option table -> Prop :=
  | saved_nothing : saved None
  | saved_by : forall file k s, saved file -> iterations k (call file) = Some s -> saved (Some (RDF s)).
End Iter.

(** * simple.py:___PRIVATE_parse_time_max_steps_max_time___, over any arithmetic *)
Record arith := mkArith {
  num : Type; nadd : num -> num -> num; nsub : num -> num -> num; nmulz : num -> num -> num; ndiv : num -> num -> num;
  nltb : num -> num -> bool; neqb : num -> num -> bool; ofZ : Z -> num;
  (** int(np.ceil(.)); None: the exception of int() on inf or nan *)
  nceil : num -> option Z }.
Section Parse.
  Variable N : arith.
  (** the max_steps given are ints; max_time is int or float. None: AssertionError (or int() failed) *)
  Definition parse (t0 : num N) (dt : option (num N)) (max_steps : option Z) (max_time : option (num N)) : option (num N * Z * num N) :=
    let end_of := fun dt n => nadd N t0 (nmulz N dt (ofZ N n)) in
    let finish := fun dt n mt =>
      if negb (nltb N (ofZ N 0) dt || neqb N (ofZ N 0) dt) then None (* dt >= 0 *)
      else if negb (0 <? n)%Z then None
      else if negb (neqb N (end_of dt n) mt) then None
      else Some (dt, n, mt) in
    match dt with
    | Some dt =>
        if negb (nltb N (ofZ N 0) dt) then None
        else
          match max_steps with
          | Some n => if negb (0 <? n)%Z then None else finish dt n (end_of dt n)
          | None =>
              match max_time with
              | Some mt =>
                  if negb (nltb N t0 mt) then None
                  else match nceil N (ndiv N (nsub N mt t0) dt) with
                       | None => None
                       | Some n => finish dt n (end_of dt n)
                       end
              | None => finish dt 9999999%Z (end_of dt 9999999%Z)
              end
          end
    | None =>
        match max_steps, max_time with
        | Some n, Some mt =>
            if negb (nltb N t0 mt) then None
            else if negb (0 <? n)%Z then None
            else let dt := ndiv N (nsub N mt t0) (ofZ N n) in
                 if negb (nltb N (ofZ N 0) dt) then None (* the setter of dt *)
                 else finish dt n mt
        | _, _ => None
        end
    end.
End Parse.

(** exact rational arithmetic *)
Definition exactQ : arith :=
  mkArith Q Qplus Qminus Qmult Qdiv (fun a b => negb (Qle_bool b a)) Qeq_bool inject_Z (fun q => Some (Qceiling q)).
(** IEEE binary64 *)
Definition b64 := spec_float.
Definition fceil (x : b64) : option Z :=
  match x with
  | S754_zero _ => Some 0%Z
  | S754_finite s m e =>
      let z := if s then Zneg m else Zpos m in
      Some (if (0 <=? e)%Z then (z * 2 ^ e)%Z else (- ((- z) / 2 ^ (- e)))%Z)
  | _ => None
  end.
Definition of_int (z : Z) : b64 := binary_normalize 53 1024 z 0 false.
Definition floats : arith :=
  mkArith b64 (SFadd 53 1024) (SFsub 53 1024) (SFmul 53 1024) (SFdiv 53 1024) SFltb SFeqb of_int fceil.
