(** Specification of the runner over matrices of inputs. *)
From Coq Require Import String Ascii List Arith Bool.
From Verif Require Import RunnerModel.
Import ListNotations.

(** a word: not empty and without white space *)
Definition word (t : text) : Prop := t <> [] /\ Forall (fun c => ws c = false) t.
(** a text of one line *)
Definition single (t : text) : Prop := ~ In nl t.
(** lines which the reader of a header takes for something else *)
Definition untagged (l : text) : Prop :=
  Forall (fun p => starts (lit p) l = false)
    ["<input names>"%string; "<input criterion>"%string; "<output names>"%string; "<kwargs>"%string; "<RESULTS>"%string].
(** legal contents of a header: three inputs, texts of one line, no line of the source code of the solver, nor of its path nor of the
    time, that looks like a line of the header *)
Definition legal (cf : conf) : Prop :=
  length (ins cf) = 3 /\ Forall single (ins cf) /\ Forall single (outs cf) /\
  Forall single [task cf; time0 cf; dir cf; sdir cf; criterion cf; kwargs cf; info cf] /\
  untagged (line (time0 cf)) /\ untagged (line (sdir cf)) /\ Forall untagged (readlines (line (source cf))) /\
  has (lit " : ") (criterion cf) = false.

(** a name without quotes and commas *)
Definition clean (a : text) : Prop := ~ In "'"%char a /\ ~ In ","%char a.

(** the non-empty entries *)
Fixpoint somes {A} (l : list (option A)) : list A :=
  match l with [] => [] | Some x :: l => x :: somes l | None :: l => somes l end.
(** each element once, in the order of the first occurrences *)
Fixpoint once {A} (eqb : A -> A -> bool) (l : list A) : list A :=
  match l with [] => [] | x :: l => x :: filter (fun y => negb (eqb x y)) (once eqb l) end.

Section Spec.
Variable V : Type.
Variable veqb : V -> V -> bool.
Variables fmt_in fmt_out : V -> text.
Variable parse : text -> option V.
Definition eqb3 (x y : V * V * V) : bool :=
  let '(a, b, c) := x in let '(d, e, f) := y in veqb a d && veqb b e && veqb c f.
Definition vec3 (x : V * V * V) : list V := let '(a, b, c) := x in [a; b; c].
Definition app3 {B} (f : V -> V -> V -> B) (x : V * V * V) : B := let '(a, b, c) := x in f a b c.
(** numbers whose texts are words, not a bar, and are read as the same number *)
Definition in_ok (v : V) : Prop := word (fmt_in v) /\ fmt_in v <> lit "|" /\ parse (fmt_in v) = Some v.
Definition out_ok (v : V) : Prop := word (fmt_out v) /\ fmt_out v <> lit "|" /\ parse (fmt_out v) = Some v.
Definition in3_ok (x : V * V * V) : Prop := Forall in_ok (vec3 x).
(** a row as the runner writes it: its numbers can be read, its times are words *)
Definition row_ok (nout : nat) (r : row V) : Prop :=
  length (rin V r) = 3 /\ length (rout V r) = nout /\ Forall (in_ok) (rin V r) /\ Forall (out_ok) (rout V r) /\
  word (itc V r) /\ word (ttc V r) /\ word (ert V r).
(** the row with another remaining time *)
Definition set_ert (r : row V) (e : text) : row V := mkRow V (idx V r) (rin V r) (rout V r) (itc V r) (ttc V r) e.
(** the solver returns as many numbers as there are names of outputs *)
Definition solver_ok (nout : nat) (solver : V -> V -> V -> list V) : Prop :=
  forall a b c, length (solver a b c) = nout /\ Forall out_ok (solver a b c).
Definition clock_ok (clock : nat -> text * text * text) : Prop :=
  forall n, word (fst (fst (clock n))) /\ word (snd (fst (clock n))) /\ word (snd (clock n)).
(** the rows of the calls xs *)
Definition rows_of (solver : V -> V -> V -> list V) (xs : list (V * V * V)) (rows : list (row V)) : Prop :=
  map (@idx V) rows = seq 0 (length xs) /\ map (@rin V) rows = map vec3 xs /\ map (@rout V) rows = map (app3 solver) xs /\
  Forall (fun r => word (itc V r) /\ word (ttc V r) /\ word (ert V r)) rows.
(** a file which holds the header and one row for each of the calls xs *)
Definition holds (cf : conf) (solver : V -> V -> V -> list V) (f : text) (xs : list (V * V * V)) : Prop :=
  exists rows, f = header cf ++ concat (map (row_text V fmt_in fmt_out) rows) /\ rows_of solver xs rows.
(** new runners, one after the other, each stopped after some turns of its loops: the file and all calls of the solver *)
Fixpoint sessions (cf : conf) (solver : V -> V -> V -> list V) (i0 : list (list (option V))) (i1 : list (list V)) (i2 : list V)
    (fs : option text) (xs : list (V * V * V)) (l : list ((nat -> text * text * text) * nat)) : option (option text * list (V * V * V)) :=
  match l with
  | [] => Some (fs, xs)
  | (clock, n) :: l =>
    match iterate V veqb fmt_in fmt_out parse cf solver clock [] fs i0 i1 i2 n with
    | None => None
    | Some st => sessions cf solver i0 i1 i2 (out V st) (xs ++ calls V st) l
    end
  end.
End Spec.
