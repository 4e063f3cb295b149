(** Model of the reduction tree, /repo/root/config/tree.py, and of the message
    pattern with which gather_M_to_core uses it,
    /repo/tools/miLinearAlgebra/dataStructures/globalMatrix/do.py:74-122. *)
From Coq Require Import List Arith ZArith Bool.
From Verif Require Import Prelude.
Import ListNotations.

(** tree.py:40 / tree.py:43: ('recv', {'source': j, 'tag': tag}) and ('send', {'dest': i, 'tag': tag}) *)
Inductive action :=
| Recv (source tag : nat)
| Send (dest tag : nat).

(** [range(0, n, 2)] *)
Definition evens (n : nat) : list nat := map (fun t => 2 * t) (seq 0 ((n + 1) / 2)).

(** tree.py:16: the first table of pairs *)
Definition H_first (SIZE : nat) : list (nat * Z) :=
  map (fun i => if i + 1 <? SIZE then (i, Z.of_nat (i + 1)) else (i, (-1)%Z)) (evens SIZE).

(** tree.py:21: the next tables of pairs *)
Definition H_next (KEYS : list nat) : list (nat * Z) :=
  let LEN := length KEYS in
  map (fun i => if i + 1 <? LEN then (nth i KEYS 0, Z.of_nat (nth (i + 1) KEYS 0))
                else (nth i KEYS 0, (-1)%Z)) (evens LEN).

(** tree.py:29-44; [m] is the enumerate counter. *)
Fixpoint parse_from (RANK m : nat) (H : list (nat * Z)) : option action :=
  match H with
  | [] => None
  | (i, j) :: H' =>
      if (j =? -1)%Z then parse_from RANK (S m) H'
      else if RANK =? i then Some (Recv (Z.to_nat j) m)
      else if (Z.of_nat RANK =? j)%Z then Some (Send i m)
      else parse_from RANK (S m) H'
  end.
Definition parse (RANK : nat) (H : list (nat * Z)) : option action := parse_from RANK 0 H.

(** tree.py:20-24, the while loop; [None] = out of fuel (excluded by the theorems). *)
Fixpoint TREE_loop (fuel RANK : nat) (KEYS : list nat) : option (list (option action)) :=
  if 1 <? length KEYS then
    match fuel with
    | 0 => None
    | S fuel' =>
        let H := H_next KEYS in
        match TREE_loop fuel' RANK (map fst H) with
        | None => None
        | Some l => Some (parse RANK H :: l)
        end
    end
  else Some [].

(** tree.py:9-24 with factor = 2: the list of yielded values on core RANK. *)
Definition TREE (SIZE RANK : nat) : option (list (option action)) :=
  let H := H_first SIZE in
  match TREE_loop SIZE RANK (map fst H) with
  | None => None
  | Some l => Some (parse RANK H :: l)
  end.

(** Asynchronous execution of do.py:74-122 on all cores: core r runs through its yielded
    values; 'send' puts the local matrix on the channel (source, dest, tag) and zeroes it
    (do.py:79-104), 'recv' takes the oldest message of the channel and adds it
    (do.py:106-119).  The matrices are elements of an arbitrary monoid.  Simplification: the
    piece-wise transmission (ST > 1) is one message here; see SplitModel for the pieces. *)
Section Async.
  Variable V : Type.
  Variable zero : V.
  Variable add : V -> V -> V.
  Variable prog : nat -> list (option action).
  Variable SIZE : nat.

  Record config := mkC {
    pc : nat -> nat;
    val : nat -> V;
    chan : nat -> nat -> nat -> list V     (* source, dest, tag *)
  }.

  Definition upd1 {B} (f : nat -> B) (x : nat) (y : B) : nat -> B :=
    fun z => if z =? x then y else f z.
  Definition upd3 {B} (f : nat -> nat -> nat -> B) (a b c : nat) (y : B) :=
    fun a' b' c' => if (a' =? a) && (b' =? b) && (c' =? c) then y else f a' b' c'.

  (** one core makes one step; any core that can may go first *)
  Inductive step : config -> config -> Prop :=
  | step_none r c :
      r < SIZE -> nth_error (prog r) (pc c r) = Some None ->
      step c (mkC (upd1 (pc c) r (S (pc c r))) (val c) (chan c))
  | step_send r d tag c :
      r < SIZE -> nth_error (prog r) (pc c r) = Some (Some (Send d tag)) ->
      step c (mkC (upd1 (pc c) r (S (pc c r))) (upd1 (val c) r zero)
                  (upd3 (chan c) r d tag (chan c r d tag ++ [val c r])))
  | step_recv r s tag v rest c :
      r < SIZE -> nth_error (prog r) (pc c r) = Some (Some (Recv s tag)) ->
      chan c s r tag = v :: rest ->
      step c (mkC (upd1 (pc c) r (S (pc c r))) (upd1 (val c) r (add (val c r) v))
                  (upd3 (chan c) s r tag rest)).

  (** Rendezvous sends (a blocking COMM.send): sender and receiver step together. *)
  Inductive rstep : config -> config -> Prop :=
  | rstep_none r c :
      r < SIZE -> nth_error (prog r) (pc c r) = Some None ->
      rstep c (mkC (upd1 (pc c) r (S (pc c r))) (val c) (chan c))
  | rstep_comm s d tag c :
      s < SIZE -> d < SIZE -> s <> d ->
      nth_error (prog s) (pc c s) = Some (Some (Send d tag)) ->
      nth_error (prog d) (pc c d) = Some (Some (Recv s tag)) ->
      rstep c (mkC (upd1 (upd1 (pc c) s (S (pc c s))) d (S (pc c d)))
                   (upd1 (upd1 (val c) s zero) d (add (val c d) (val c s)))
                   (chan c)).

  Definition init (c0 : nat -> V) : config := mkC (fun _ => 0) c0 (fun _ _ _ => []).
  Definition finished (c : config) : Prop := forall r, r < SIZE -> pc c r = length (prog r).
End Async.
