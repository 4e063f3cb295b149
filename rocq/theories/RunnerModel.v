(** Model of the runner over 3d matrices of inputs:
    tools/legacy/serialRunners/_runner_.py, tools/legacy/serialRunners/INSTANCES/matrix3d_input_runner.py and the slave
    side in tools/run/runners/_3d_matrix_inputs/main.py.
    Texts are lists of ascii characters; the text of a number and its reading are parameters, and so are the three times of a
    row and the solver. Exceptions are [None]. *)
From Coq Require Import String Ascii List Arith Bool DecimalString.
From Verif Require Import AssembleModel.
Import ListNotations.

Definition text := list ascii.
Definition lit (s : string) : text := list_ascii_of_string s.
Definition nl : ascii := "010"%char.
Definition sp : ascii := " "%char.
Fixpoint teqb (a b : text) : bool :=
  match a, b with [], [] => true | c :: a, d :: b => Ascii.eqb c d && teqb a b | _, _ => false end.
(** white space of [str.split()], ascii part *)
Definition ws (c : ascii) : bool :=
  let n := nat_of_ascii c in (n =? 32) || ((9 <=? n) && (n <=? 13)) || ((28 <=? n) && (n <=? 31)).
(** [f.readlines()]: lines with their newline; carriage returns are not translated *)
Fixpoint readlines (t : text) : list text :=
  match t with
  | [] => []
  | c :: t => if Ascii.eqb c nl then [c] :: readlines t else match readlines t with [] => [[c]] | l :: ls => (c :: l) :: ls end
  end.
(** [t.split()] *)
Fixpoint words (t : text) : list text :=
  match t with
  | [] => []
  | c :: t =>
    if ws c then words t
    else match t with
         | [] => [[c]]
         | d :: _ => if ws d then [c] :: words t else match words t with [] => [[c]] | w :: l => (c :: w) :: l end
         end
  end.
(** ['{: <n}'.format(t)] *)
Definition pad (n : nat) (t : text) : text := t ++ repeat sp (n - length t).
(** [t[0:len(p)] == p] *)
Definition starts (p t : text) : bool := teqb (firstn (length p) t) p.
(** [p in t] for texts *)
Fixpoint has (p t : text) : bool := starts p t || match t with [] => false | _ :: t => has p t end.
(** before and after the first [p] *)
Fixpoint until (p t : text) : text * option text :=
  if starts p t then ([], Some (skipn (length p) t))
  else match t with [] => ([], None) | c :: t => let (a, b) := until p t in (c :: a, b) end.
(** [t.split(p)[1]] *)
Definition field (p t : text) : option text :=
  match snd (until p t) with None => None | Some r => Some (fst (until p r)) end.
(** [str(n)] and [int(t)] of an index *)
Definition dec (n : nat) : text := lit (NilEmpty.string_of_uint (Nat.to_uint n)).
Definition undec (t : text) : option nat :=
  match t with [] => None | _ => option_map Nat.of_uint (NilEmpty.uint_of_string (string_of_list_ascii t)) end.
(** [str] of a tuple of strings without quotes *)
Fixpoint joined (l : list text) : text :=
  match l with [] => [] | [a] => lit "'" ++ a ++ lit "'" | a :: l => lit "'" ++ a ++ lit "', " ++ joined l end.
Definition show_tuple (l : list text) : text :=
  match l with [a] => lit "('" ++ a ++ lit "',)" | _ => lit "(" ++ joined l ++ lit ")" end.
(** [t.replace("'", "").split(', ')] *)
Fixpoint split_comma (fuel : nat) (t : text) : list text :=
  match fuel with
  | 0 => [t]
  | S fuel => match until (lit ", ") t with (a, None) => [a] | (a, Some r) => a :: split_comma fuel r end
  end.
Definition names_of (t : text) : list text :=
  let t := filter (fun c => negb (Ascii.eqb c "'"%char)) t in split_comma (length t) t.
(** [t[n:-2]] *)
Definition cut (n : nat) (t : text) : text := let u := skipn n t in firstn (length u - 2) u.

(** what the header of the file holds, _runner_.py:308-332 *)
Record conf := mkConf {
  task : text; time0 : text; dir : text; sdir : text; source : text;
  ins : list text; criterion : text; outs : list text; kwargs : text; info : text }.
Definition cls : text := lit "Matrix3dInputRunner".
Definition line (t : text) : text := t ++ [nl].
(** _runner_.py:308-332 ___initial_writing___ *)
Definition head_lines (cf : conf) : list text :=
  [ lit "<Runner>-<" ++ cls ++ lit ">-<task name: " ++ task cf ++ lit ">";
    time0 cf;
    lit "<dir> : " ++ dir cf;
    lit "<solver_dir> :" ] .
Definition columns (cf : conf) : text :=
  pad 15 (lit "index") ++ concat (map (pad 25) (ins cf)) ++ concat (map (pad 25) (outs cf)) ++ lit "| " ++
  lit "ITC(W)         " ++ lit "TTC(W)         " ++ lit "ERT(W)       ".
Definition dashes (cf : conf) : text :=
  repeat "-"%char 15 ++ repeat "-"%char (3 * 25) ++ repeat "-"%char (25 * length (outs cf)) ++ lit "|-" ++
  repeat "-"%char 15 ++ repeat "-"%char 15 ++ repeat "-"%char 13.
Definition header (cf : conf) : text :=
  concat (map line (head_lines cf)) ++ line (sdir cf) ++ [nl] ++
  line (lit "<solver_source_code> :") ++ line (source cf) ++ [nl] ++
  line (lit "<input names> : " ++ show_tuple (ins cf)) ++
  line (lit "<input criterion> : " ++ criterion cf) ++
  line (lit "<output names> : " ++ show_tuple (outs cf)) ++
  line (lit "<kwargs> : " ++ kwargs cf) ++
  line (lit "<INFO> : " ++ info cf) ++ [nl] ++
  line (lit "<RESULTS> : ") ++ line (columns cf) ++ line (dashes cf).

(** _runner_.py:206-252, the loop over the lines of the header when not initializing: the index of the first row; the kwargs
    are compared for a warning only. [None] is a failed assertion (or a header line without ' : '). Without a line of
    results the loop would end by itself; lines 203-204 exclude it. *)
Fixpoint scan (cf : conf) (ls : list text) (i : nat) : option nat :=
  match ls with
  | [] => None
  | l :: ls =>
    if starts (lit "<input names>") l then
      if teqb l (line (lit "<input names> : " ++ show_tuple (ins cf))) then scan cf ls (S i) else None
    else if starts (lit "<input criterion>") l then
      match field (lit " : ") l with
      | None => None
      | Some c => if teqb (criterion cf) (removelast c) then scan cf ls (S i) else None
      end
    else if starts (lit "<output names>") l then
      if teqb l (line (lit "<output names> : " ++ show_tuple (outs cf))) then scan cf ls (S i) else None
    else if starts (lit "<kwargs>") l then scan cf ls (S i)
    else if starts (lit "<RESULTS>") l then Some (i + 3)
    else scan cf ls (S i)
  end.
(** the same loop when initializing: the index of the first row and the names of inputs and outputs found on the way (the
    criterion and the kwargs are only stored) *)
Fixpoint scan_init (ls : list text) (k : nat) (i o : list text) : option (nat * list text * list text) :=
  match ls with
  | [] => None
  | l :: ls =>
    if starts (lit "<input names>") l then scan_init ls (S k) (names_of (cut 17 l)) o
    else if starts (lit "<input criterion>") l then
      match field (lit " : ") l with None => None | Some _ => scan_init ls (S k) i o end
    else if starts (lit "<output names>") l then scan_init ls (S k) i (names_of (cut 18 l))
    else if starts (lit "<kwargs>") l then
      match field (lit " : ") l with None => None | Some _ => scan_init ls (S k) i o end
    else if starts (lit "<RESULTS>") l then Some (k + 3, i, o)
    else scan_init ls (S k) i o
  end.

Section Runner.
Variable V : Type.
Variable veqb : V -> V -> bool.
Variables fmt_in fmt_out : V -> text.
Variable parse : text -> option V.

(** a row of the data frame *)
Record row := mkRow { idx : nat; rin : list V; rout : list V; itc : text; ttc : text; ert : text }.

(** _runner_.py:344-360 ___write_to___: the text of a row. [fmt_in v] is the integer when v%1==0 and '%.16e' otherwise,
    [fmt_out v] is '%.16e' *)
Definition row_text (r : row) : text :=
  pad 14 (dec (idx r)) ++ [sp] ++
  concat (map (fun v => pad 23 (fmt_in v) ++ [sp; sp]) (rin r)) ++
  concat (map (fun v => pad 23 (fmt_out v) ++ [sp; sp]) (rout r)) ++
  lit "| " ++
  pad 13 (itc r) ++ [sp; sp] ++ pad 13 (ttc r) ++ [sp; sp] ++ pad 13 (ert r) ++ [nl].
(** [l.remove(x)] *)
Fixpoint remove1 (x : text) (l : list text) : option (list text) :=
  match l with [] => None | y :: l => if teqb y x then Some l else option_map (cons y) (remove1 x l) end.
(** _runner_.py:362-372 ___read_to_rdf___ *)
Definition read_to_rdf (nin : nat) (di : list text) : option row :=
  match remove1 (lit "|") di with
  | None => None
  | Some di =>
    match undec (hd [] di), all_some (map parse (firstn (length di - 4) (tl di))), skipn (length di - 3) di with
    | Some m, Some data, [a; b; c] => Some (mkRow m (firstn nin data) (skipn nin data) a b c)
    | _, _, _ => None
    end
  end.
(** _runner_.py:254-267: rows are read until the end of the file or the first line with another number of words *)
Fixpoint read_rows (nin nout : nat) (ls : list text) : option (list row) :=
  match ls with
  | [] => Some []
  | l :: ls =>
    if length (words l) =? 1 + nin + nout + 1 + 3 then
      match read_to_rdf nin (words l) with None => None | Some r => option_map (cons r) (read_rows nin nout ls) end
    else Some []
  end.
(** _runner_.py:200-204, the checks of the format *)
Definition format_ok (ls : list text) : bool :=
  match ls with
  | [] => false
  | l0 :: _ => teqb (firstn 6 (skipn 1 l0)) (lit "Runner") && has cls l0 && existsb (teqb (line (lit "<RESULTS> : "))) ls
  end.
(** _runner_.py:188-268 ___readcontents___ when not initializing *)
Definition read_contents (cf : conf) (t : text) : option (nat * list text * list row) :=
  let ls := readlines t in
  if format_ok ls then
    match scan cf ls 0 with
    | None => None
    | Some i => match read_rows (length (ins cf)) (length (outs cf)) (skipn i ls) with
                | None => None
                | Some rows => Some (i + length rows, ls, rows)
                end
    end
  else None.
(** _runner_.py:177-186 readfile, that is ___readcontents___ when initializing: the names and the rows *)
Definition read_file (t : text) : option (list text * list text * list row) :=
  let ls := readlines t in
  if format_ok ls then
    match scan_init ls 0 [] [] with
    | None => None
    | Some (k, i, o) => option_map (fun rows => (i, o, rows)) (read_rows (length i) (length o) (skipn k ls))
    end
  else None.
(** _runner_.py:270-307 ___prepare_write_file___: the text of the file, the rows and the pool with which the loop starts.
    [fs] is the file if there is one, [pool] what the runner has computed before. The file is written again up to the
    last row read; asking for more lines than there are is an IndexError *)
Definition prepare (cf : conf) (pool : list (list V)) (fs : option text) : option (text * list row * list (list V)) :=
  match fs with
  | None => Some (header cf, [], pool)
  | Some t =>
    match read_contents cf t with
    | None => None
    | Some (i, ls, rows) => if i <=? length ls then Some (concat (firstn i ls), rows, pool ++ map rin rows) else None
    end
  end.

(** the messages of the master to a slave (all slaves get the same; the tag is the rank of the slave plus the number given
    here), barriers, and calls of the solver *)
Inductive msg := Shape (i j k : nat) | Go (b : bool) | Inputs (a b c : V).
Inductive event := Send (tag : nat) (m : msg) | Barrier | Solve (a b c : V).

(** matrix3d_input_runner.py:206-229 ___parse_and_check_iterate_inputs___, criterion 'standard'. An entry None of i0 is a run to
    skip; initialize_3d_list gives None. The number of iterations (for the times only) is left out *)
Definition shape (i0 : list (list (option V))) (i2 : list V) : nat * nat * nat :=
  (length i0, fold_left (fun s r => if s <? length r then length r else s) i0 0, length i2).
Definition inputs_ok (i0 : list (list (option V))) (i1 : list (list V)) : bool :=
  (length i0 =? length i1) && forallb (fun x => length (fst x) =? length (snd x)) (combine i0 i1).
Definition cell (i0 : list (list (option V))) (i1 : list (list V)) (i2 : list V) (i j k : nat) : option (V * V * V) :=
  match nth_error i0 i, nth_error i1 i, nth_error i2 k with
  | Some r, Some s, Some c => match nth_error r j, nth_error s j with Some (Some a), Some b => Some (a, b, c) | _, _ => None end
  | _, _, _ => None
  end.
(** matrix3d_input_runner.py:282-284: the order of the loops *)
Definition cells (i0 : list (list (option V))) (i1 : list (list V)) (i2 : list V) : list (option (V * V * V)) :=
  let '(di, dj, dk) := shape i0 i2 in
  flat_map (fun k => flat_map (fun i => map (fun j => cell i0 i1 i2 i j k) (seq 0 dj)) (seq 0 di)) (seq 0 dk).

Record state := mkState { pool : list (list V); rdf : list row; out : option text; calls : list (V * V * V); sent : list event }.
(** [inputs in self._computed_pool_] *)
Fixpoint leqb (a b : list V) : bool :=
  match a, b with [], [] => true | x :: a, y :: b => veqb x y && leqb a b | _, _ => false end.
Definition computed (p : list (list V)) (x : list V) : bool := existsb (leqb x) p.
(** self._rdf_[...][m], the row with label m *)
Definition labelled (l : list row) (m : nat) : option row :=
  match filter (fun r => idx r =? m) l with [r] => Some r | _ => None end.
(** matrix3d_input_runner.py:285-369: one turn of the loops. [nout] is the number of names of outputs: the data frame refuses another
    number of outputs *)
Definition step (nout : nat) (solver : V -> V -> V -> list V) (clock : nat -> text * text * text) (st : state)
    (c : option (V * V * V)) : option state :=
  match c with
  | None => Some (mkState (pool st) (rdf st) (out st) (calls st) (sent st ++ [Send 2 (Go false); Barrier]))
  | Some (a, b, c) =>
    if match pool st with [] => false | _ => computed (pool st) [a; b; c] end
    then Some (mkState (pool st) (rdf st) (out st) (calls st) (sent st ++ [Send 2 (Go false); Barrier]))
    else
      let m := match rev (rdf st) with [] => 0 | r :: _ => idx r + 1 end in
      let o := solver a b c in
      let '(t1, t2, t3) := clock (length (calls st)) in
      if length o =? nout then
        let rdf' := rdf st ++ [mkRow m [a; b; c] o t1 t2 t3] in
        match match out st with None => Some None | Some f => option_map (fun r => Some (f ++ row_text r)) (labelled rdf' m) end with
        | None => None
        | Some f => Some (mkState (pool st ++ [[a; b; c]]) rdf' f (calls st ++ [(a, b, c)])
                           (sent st ++ [Send 2 (Go true); Barrier; Send 3 (Inputs a b c); Barrier; Solve a b c]))
        end
      else None
  end.
Fixpoint steps (nout : nat) (solver : V -> V -> V -> list V) (clock : nat -> text * text * text) (st : state)
    (l : list (option (V * V * V))) : option state :=
  match l with
  | [] => Some st
  | c :: l => match step nout solver clock st c with None => None | Some st => steps nout solver clock st l end
  end.
(** matrix3d_input_runner.py:235-381 iterate with a file, stopped after n turns. [p] is the pool of the runner before *)
Definition iterate (cf : conf) (solver : V -> V -> V -> list V) (clock : nat -> text * text * text) (p : list (list V))
    (fs : option text) (i0 : list (list (option V))) (i1 : list (list V)) (i2 : list V) (n : nat) : option state :=
  if inputs_ok i0 i1 then
    match prepare cf p fs with
    | None => None
    | Some (f, rows, p) =>
      let '(di, dj, dk) := shape i0 i2 in
      steps (length (outs cf)) solver clock (mkState p rows (Some f) [] [Send 1 (Shape di dj dk); Barrier]) (firstn n (cells i0 i1 i2))
    end
  else None.

(** main.py:70-84 of the parallel runner: a slave, given what the master does. Receiving needs a message with the tag, the barrier a
    barrier, and the solver is called together with the master's. The result is what is left of the master's doings and
    the inputs of the calls *)
Definition receive (tag : nat) (l : list event) : option (msg * list event) :=
  match l with Send t m :: l => if t =? tag then Some (m, l) else None | _ => None end.
Definition barrier (l : list event) : option (list event) := match l with Barrier :: l => Some l | _ => None end.
Definition together (l : list event) : option (list event) := match l with Solve _ _ _ :: l => Some l | _ => None end.
Fixpoint slave_loop (n : nat) (l : list event) (done : list (V * V * V)) : option (list event * list (V * V * V)) :=
  match n with
  | 0 => Some (l, done)
  | S n =>
    match receive 2 l with
    | Some (Go g, l) =>
      match barrier l with
      | None => None
      | Some l =>
        if g then
          match receive 3 l with
          | Some (Inputs a b c, l) =>
            match barrier l with
            | None => None
            | Some l => match together l with None => None | Some l => slave_loop n l (done ++ [(a, b, c)]) end
            end
          | _ => None
          end
        else slave_loop n l done
      end
    | _ => None
    end
  end.
Definition slave (l : list event) : option (list event * list (V * V * V)) :=
  match receive 1 l with
  | Some (Shape i j k, l) => match barrier l with None => None | Some l => slave_loop (k * (i * j)) l [] end
  | _ => None
  end.
End Runner.
