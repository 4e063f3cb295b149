(** Properties of the runner over matrices of inputs. *)
From Coq Require Import String Ascii List Arith ZArith Reals Bool.
From Verif Require Import RunnerModel RunnerSpec RunnerProofs5 RunnerProofs7 RunnerProofs9 RunnerProofs10 RunnerNumModel RunnerNumSpec RunnerNumProofs RunnerExample.
Import ListNotations.
Local Open Scope nat_scope.
Local Open Scope list_scope.

(** C37: the solver is called once, in the order of the loops, for every set of inputs reached by one of the runners, however often and
    wherever (between two rows) the runners were stopped; the file holds one row for each call *)
Theorem C37_crashes : forall V (veqb : V -> V -> bool) fmt_in fmt_out parse, (forall x y, veqb x y = true <-> x = y) -> forall cf solver i0 i1 i2 l,
  legal cf -> solver_ok V fmt_out parse (length (outs cf)) solver -> inputs_ok V i0 i1 = true -> Forall (in3_ok V fmt_in parse) (somes (cells V i0 i1 i2)) ->
  l <> [] -> Forall (fun s => clock_ok (fst s)) l ->
  exists f, sessions V veqb fmt_in fmt_out parse cf solver i0 i1 i2 None [] l = Some (Some f, once (eqb3 V veqb) (somes (firstn (fold_right Nat.max 0 (map snd l)) (cells V i0 i1 i2)))) /\
    holds V fmt_in fmt_out cf solver f (once (eqb3 V veqb) (somes (firstn (fold_right Nat.max 0 (map snd l)) (cells V i0 i1 i2)))).
Proof. exact crashes. Qed.
Print Assumptions C37_crashes.
(** so if the last one is not stopped, all sets of inputs are computed once, as by a runner which was never stopped *)
Theorem C37_complete : forall V (veqb : V -> V -> bool) fmt_in fmt_out parse, (forall x y, veqb x y = true <-> x = y) -> forall cf solver i0 i1 i2 l clock,
  legal cf -> solver_ok V fmt_out parse (length (outs cf)) solver -> inputs_ok V i0 i1 = true -> Forall (in3_ok V fmt_in parse) (somes (cells V i0 i1 i2)) ->
  Forall (fun s => clock_ok (fst s)) (l ++ [clock]) -> length (cells V i0 i1 i2) <= snd clock ->
  exists f, sessions V veqb fmt_in fmt_out parse cf solver i0 i1 i2 None [] (l ++ [clock]) = Some (Some f, once (eqb3 V veqb) (somes (cells V i0 i1 i2))) /\
    holds V fmt_in fmt_out cf solver f (once (eqb3 V veqb) (somes (cells V i0 i1 i2))).
Proof. exact crashes_complete. Qed.
Print Assumptions C37_complete.
Theorem C37_once : forall V (veqb : V -> V -> bool), (forall x y, veqb x y = true <-> x = y) -> forall l, NoDup (once (eqb3 V veqb) l) /\ forall x, In x (once (eqb3 V veqb) l) <-> In x l.
Proof. exact once_spec. Qed.
Print Assumptions C37_once.
(** the turns of the loops are the entries of the matrices: the third input goes slowest, the second index fastest *)
Theorem C37_order : forall V (i0 : list (list (option V))) i1 i2 i j k r s a b c, nth_error i0 i = Some r -> nth_error i1 i = Some s -> nth_error i2 k = Some c ->
  nth_error r j = Some (Some a) -> nth_error s j = Some b ->
  let '(di, dj, dk) := shape V i0 i2 in nth_error (cells V i0 i1 i2) (k * (di * dj) + (i * dj + j)) = Some (Some (a, b, c)).
Proof. exact cells_all. Qed.
Print Assumptions C37_order.
Theorem C37_only : forall V (i0 : list (list (option V))) i1 i2 a b c, In (Some (a, b, c)) (cells V i0 i1 i2) ->
  exists i j k r s, nth_error i0 i = Some r /\ nth_error i1 i = Some s /\ nth_error i2 k = Some c /\ nth_error r j = Some (Some a) /\ nth_error s j = Some b.
Proof. exact cells_only. Qed.
Print Assumptions C37_only.
(** the data frame holds the rows of the file and those computed *)
Theorem C37_results : forall V (veqb : V -> V -> bool) fmt_in fmt_out parse cf solver clock i0 i1 i2 f xs n,
  legal cf -> solver_ok V fmt_out parse (length (outs cf)) solver -> inputs_ok V i0 i1 = true -> Forall (in3_ok V fmt_in parse) (somes (cells V i0 i1 i2)) ->
  clock_ok clock -> Forall (in3_ok V fmt_in parse) xs -> holds V fmt_in fmt_out cf solver f xs ->
  exists st, iterate V veqb fmt_in fmt_out parse cf solver clock [] (Some f) i0 i1 i2 n = Some st /\ rows_of V solver (xs ++ calls V st) (rdf V st) /\
    forall f', out V st = Some f' -> holds V fmt_in fmt_out cf solver f' (xs ++ calls V st).
Proof. exact results_ok. Qed.
Print Assumptions C37_results.
(** the slaves receive what they wait for and call the solver with the master *)
Theorem C37_slaves : forall V (veqb : V -> V -> bool) fmt_in fmt_out parse cf solver clock p fs i0 i1 i2 n st, length (cells V i0 i1 i2) <= n ->
  iterate V veqb fmt_in fmt_out parse cf solver clock p fs i0 i1 i2 n = Some st -> slave V (sent V st) = Some ([], calls V st).
Proof. exact slave_ok. Qed.
Print Assumptions C37_slaves.
(** doubles, and integers up to 2^53, are found in the pool after writing and reading; outputs which are doubles are read as they were *)
Theorem C37_doubles : forall x, is_double x -> reread x = x.
Proof. exact reread_ok. Qed.
Print Assumptions C37_doubles.
Theorem C37_outputs : forall x, is_double x -> reread_out x = x.
Proof. exact decimal_ok. Qed.
Print Assumptions C37_outputs.
Theorem C37_integers : forall z, (Z.abs z <= 2 ^ 53)%Z -> reread (IZR z) = IZR z.
Proof. exact int_ok. Qed.
Print Assumptions C37_integers.
(** larger integers are not: they are computed again by every runner *)
Theorem C37_integers_refuted : reread (IZR (2 ^ 53 + 1)) <> IZR (2 ^ 53 + 1).
Proof. exact big_int_lost. Qed.
Print Assumptions C37_integers_refuted.

(** stopped within a row: with a word missing the row is dropped and the file is as before *)
Theorem C37_torn : forall V fmt_in fmt_out parse cf, legal cf -> forall rows, Forall (row_ok V fmt_in fmt_out parse (length (outs cf))) rows ->
  forall pool r p q, row_ok V fmt_in fmt_out parse (length (outs cf)) r -> q <> [] -> row_text V fmt_in fmt_out r = p ++ q -> length (words p) <> 1 + 3 + length (outs cf) + 1 + 3 ->
  prepare V parse cf pool (Some (header cf ++ concat (map (row_text V fmt_in fmt_out) rows) ++ p)) = Some (header cf ++ concat (map (row_text V fmt_in fmt_out) rows), rows, pool ++ map (rin V) rows).
Proof. exact torn_dropped. Qed.
Print Assumptions C37_torn.
(** with all words, but not all of the last one or no newline, it is kept ... *)
Theorem C37_torn_last : forall V fmt_in fmt_out parse cf, legal cf -> forall rows, Forall (row_ok V fmt_in fmt_out parse (length (outs cf))) rows ->
  forall pool r p q, row_ok V fmt_in fmt_out parse (length (outs cf)) r -> q <> [] -> row_text V fmt_in fmt_out r = p ++ q -> length (words p) = 1 + 3 + length (outs cf) + 1 + 3 ->
  exists e e', ert V r = e ++ e' /\ e <> [] /\
  prepare V parse cf pool (Some (header cf ++ concat (map (row_text V fmt_in fmt_out) rows) ++ p)) =
  Some (header cf ++ concat (map (row_text V fmt_in fmt_out) rows) ++ p, rows ++ [set_ert V r e], pool ++ map (rin V) (rows ++ [r])).
Proof. exact torn_kept. Qed.
Print Assumptions C37_torn_last.
(** ... and the next row is written on the same line: the runner after the next does not find the two rows, nor any row after them *)
Theorem C37_torn_refuted : forall V fmt_in fmt_out parse cf, legal cf -> forall rows, Forall (row_ok V fmt_in fmt_out parse (length (outs cf))) rows ->
  forall pool r p q r2 t, row_ok V fmt_in fmt_out parse (length (outs cf)) r -> q <> [] -> row_text V fmt_in fmt_out r = p ++ q -> length (words p) = 1 + 3 + length (outs cf) + 1 + 3 ->
  row_ok V fmt_in fmt_out parse (length (outs cf)) r2 ->
  prepare V parse cf pool (Some (header cf ++ concat (map (row_text V fmt_in fmt_out) rows) ++ p ++ row_text V fmt_in fmt_out r2 ++ t)) =
  Some (header cf ++ concat (map (row_text V fmt_in fmt_out) rows), rows, pool ++ map (rin V) rows).
Proof. exact torn_glued. Qed.
Print Assumptions C37_torn_refuted.
(** stopped within the header: no later runner can use the file *)
Theorem C37_header_refuted : forall V parse cf pool p q, legal cf -> header cf = p ++ q -> length (line (dashes cf)) <= length q -> prepare V parse cf pool (Some p) = None.
Proof. exact header_cut. Qed.
Print Assumptions C37_header_refuted.
(** or, within its last line, the first row is never read *)
Theorem C37_header_last_refuted : forall V fmt_in fmt_out parse cf pool p q, legal cf -> header cf = p ++ q -> q <> [] -> length q < length (line (dashes cf)) ->
  prepare V parse cf pool (Some p) = Some (p, [], pool) /\
  forall r rows, row_ok V fmt_in fmt_out parse (length (outs cf)) r -> Forall (row_ok V fmt_in fmt_out parse (length (outs cf))) rows ->
  prepare V parse cf pool (Some (p ++ row_text V fmt_in fmt_out r ++ concat (map (row_text V fmt_in fmt_out) rows))) =
  Some (p ++ row_text V fmt_in fmt_out r ++ concat (map (row_text V fmt_in fmt_out) rows), rows, pool ++ map (rin V) rows).
Proof. exact header_last. Qed.
Print Assumptions C37_header_last_refuted.
(** a file with other names or another criterion is refused, and so are matrices of different shapes *)
Theorem C37_names : forall V parse cf cf' pool t x, legal cf -> Forall clean (ins cf) -> Forall clean (outs cf) -> Forall clean (ins cf') -> Forall clean (outs cf') ->
  outs cf <> [] -> ins cf' <> [] -> outs cf' <> [] -> prepare V parse cf' pool (Some (header cf ++ t)) = Some x ->
  ins cf' = ins cf /\ outs cf' = outs cf /\ criterion cf' = criterion cf.
Proof. exact refused. Qed.
Print Assumptions C37_names.
Theorem C37_shapes : forall V veqb fmt_in fmt_out parse cf solver clock p fs i0 i1 i2 n st,
  iterate V veqb fmt_in fmt_out parse cf solver clock p fs i0 i1 i2 n = Some st -> Forall2 (fun r s => length r = length s) i0 i1.
Proof. exact shapes_refused. Qed.
Print Assumptions C37_shapes.
(** the keyword arguments and the solver are not compared: with the same names and criterion the old outputs are the results *)
Theorem C37_kwargs_refuted : forall V (veqb : V -> V -> bool), (forall x y, veqb x y = true <-> x = y) -> forall fmt_in fmt_out parse cf cf' solver solver' clock f xs i0 i1 i2,
  legal cf -> solver_ok V fmt_out parse (length (outs cf)) solver -> Forall (in3_ok V fmt_in parse) xs ->
  holds V fmt_in fmt_out cf solver f xs -> ins cf' = ins cf -> outs cf' = outs cf -> criterion cf' = criterion cf ->
  inputs_ok V i0 i1 = true -> (forall x, In (Some x) (cells V i0 i1 i2) -> In x xs) ->
  exists st, iterate V veqb fmt_in fmt_out parse cf' solver' clock [] (Some f) i0 i1 i2 (length (cells V i0 i1 i2)) = Some st /\ calls V st = [] /\ out V st = Some f /\ map (rout V) (rdf V st) = map (app3 V solver) xs.
Proof. exact not_compared. Qed.
Print Assumptions C37_kwargs_refuted.
(** a runner used again, with a new file, computes nothing of what it has computed before and writes nothing of it *)
Theorem C37_used_refuted : forall V (veqb : V -> V -> bool), (forall x y, veqb x y = true <-> x = y) -> forall fmt_in fmt_out parse cf solver clock p i0 i1 i2,
  inputs_ok V i0 i1 = true -> (forall x, In (Some x) (cells V i0 i1 i2) -> In (vec3 V x) p) ->
  exists st, iterate V veqb fmt_in fmt_out parse cf solver clock p None i0 i1 i2 (length (cells V i0 i1 i2)) = Some st /\ calls V st = [] /\ out V st = Some (header cf) /\ rdf V st = [].
Proof. exact used_runner. Qed.
Print Assumptions C37_used_refuted.
(** readfile gives names and rows, *)
Theorem C37_read_file : forall V fmt_in fmt_out parse cf rows, legal cf -> Forall clean (ins cf) -> Forall clean (outs cf) -> 2 <= length (outs cf) ->
  Forall (row_ok V fmt_in fmt_out parse (length (outs cf))) rows ->
  read_file V parse (header cf ++ concat (map (row_text V fmt_in fmt_out) rows)) = Some (ins cf, outs cf, rows).
Proof. exact read_file_names. Qed.
Print Assumptions C37_read_file.
(** but a single output gets a comma at the end of its name *)
Theorem C37_read_file_refuted : forall V fmt_in fmt_out parse cf rows d, legal cf -> Forall clean (ins cf) -> clean d -> outs cf = [d] ->
  Forall (row_ok V fmt_in fmt_out parse 1) rows ->
  read_file V parse (header cf ++ concat (map (row_text V fmt_in fmt_out) rows)) = Some (ins cf, [d ++ lit ","], rows).
Proof. exact read_file_one. Qed.
Print Assumptions C37_read_file_refuted.

(** five sets of inputs, one of them twice and one left out, for two values of the third input; runners stopped after 2, 1, 7 and all turns *)
Example C37_ex : legal ex_cf /\ solver_ok nat dec undec 2 ex_solver /\ clock_ok ex_clock /\ (forall v, in_ok nat dec undec v) /\
  option_map snd (ex_sessions [2; 1; 7; 12]) = Some ex_all /\ option_map snd (ex_sessions [12]) = Some ex_all /\ option_map snd (ex_sessions [2; 1]) = Some (firstn 2 ex_all) /\
  option_map (slave nat) (option_map (sent nat) (ex_run None 12)) = Some (Some ([], ex_all)).
Proof. split; [exact ex_legal|]. split; [exact ex_solver_ok|]. split; [exact ex_clock_ok|]. split; [exact ex_in|]. repeat split; vm_compute; reflexivity. Qed.
(** the file without its last character, then two runners: rows 0 and 1 are computed again by the second *)
Example C37_torn_ex :
  let f := match ex_run None 1 with Some st => match out nat st with Some f => removelast f | None => [] end | None => [] end in
  match ex_run (Some f) 12 with
  | Some st => match out nat st with
    | Some g => calls nat st = tl ex_all /\ length (rdf nat st) = 6 /\ option_map (calls nat) (ex_run (Some g) 12) = Some ex_all
    | None => False
    end
  | None => False
  end.
Proof. vm_compute. repeat split. Qed.
(** 1/3 is not a double, 0.1 rounded is: 3602879701896397 / 2^55 *)
Example C37_doubles_ex : is_double (IZR 3602879701896397 * powerRZ 2 (-55))%R.
Proof. exists 3602879701896397%Z, (-55)%Z. repeat split; discriminate || reflexivity. Qed.
