(** Models of the cooperative multi-core procedures
    /repo/root/config/chaining.py, dispatching.py and check_same_in_all_cores.py. *)
From Coq Require Import List Arith ZArith Bool.
From Verif Require Import Prelude.
Import ListNotations.

Definition upd {B} (f : nat -> B) (x : nat) (y : B) : nat -> B :=
  fun z => if z =? x then y else f z.

(** * CHAINING *)

(** The run of [method] on a core is split in its beginning and its end, so that
    overlapping of two cores is observable. *)
Inductive event := Begin (rank : nat) | End_ (rank : nat).

Inductive instr :=
| IBegin                       (* method(...) starts *)
| IEnd                         (* method(...) returns *)
| ISend (dest tag : nat)       (* COMM.send(1, dest, tag) *)
| IRecv (source tag : nat).    (* COMM.recv(source, tag) *)

(** chaining.py:17-33 as the instruction list of core RANK; [None] is the final
    [raise Exception()]. *)
Definition CHAINING (SIZE RANK : nat) : option (list instr) :=
  if SIZE =? 1 then Some [IBegin; IEnd]
  else if RANK =? 0 then Some [IBegin; IEnd; ISend 1 0]
  else if RANK <? SIZE - 1 then
    Some [IRecv (RANK - 1) (RANK - 1); IBegin; IEnd; ISend (RANK + 1) RANK]
  else if RANK =? SIZE - 1 then Some [IRecv (RANK - 1) (RANK - 1); IBegin; IEnd]
  else None.

(** Execution: program counters, number of messages in flight on each channel
    (source, dest, tag) and the global trace of events. *)
Record chain_cfg := mkCh {
  ch_pc : nat -> nat;
  ch_msgs : nat -> nat -> nat -> nat;
  ch_trace : list event
}.

Section ChainExec.
  Variable SIZE : nat.
  Variable prog : nat -> list instr.

  Definition upd3n (f : nat -> nat -> nat -> nat) a b c y : nat -> nat -> nat -> nat :=
    fun a' b' c' => if (a' =? a) && (b' =? b) && (c' =? c) then y else f a' b' c'.

  (** any core whose next instruction is enabled may step *)
  Inductive chain_step : chain_cfg -> chain_cfg -> Prop :=
  | cs_begin r c : r < SIZE -> nth_error (prog r) (ch_pc c r) = Some IBegin ->
      chain_step c (mkCh (upd (ch_pc c) r (S (ch_pc c r))) (ch_msgs c) (ch_trace c ++ [Begin r]))
  | cs_end r c : r < SIZE -> nth_error (prog r) (ch_pc c r) = Some IEnd ->
      chain_step c (mkCh (upd (ch_pc c) r (S (ch_pc c r))) (ch_msgs c) (ch_trace c ++ [End_ r]))
  | cs_send r d t c : r < SIZE -> nth_error (prog r) (ch_pc c r) = Some (ISend d t) ->
      chain_step c (mkCh (upd (ch_pc c) r (S (ch_pc c r)))
                         (upd3n (ch_msgs c) r d t (S (ch_msgs c r d t))) (ch_trace c))
  | cs_recv r s t n c : r < SIZE -> nth_error (prog r) (ch_pc c r) = Some (IRecv s t) ->
      ch_msgs c s r t = S n ->
      chain_step c (mkCh (upd (ch_pc c) r (S (ch_pc c r)))
                         (upd3n (ch_msgs c) s r t n) (ch_trace c)).

  Definition chain_init : chain_cfg := mkCh (fun _ => 0) (fun _ _ _ => 0) [].
  Definition chain_done (c : chain_cfg) : Prop := forall r, r < SIZE -> ch_pc c r = length (prog r).
End ChainExec.

(** * DISPATCHING *)

(** dispatching.py:31-35: with at most two cores the master runs all tasks; the
    result pool (as the list of inputs it was called with) of core RANK. *)
Definition DISPATCHING_small {D} (RANK : nat) (tasks : list D) : list D :=
  if RANK =? 0 then tasks else [].

Section Dispatch.
  Variable D : Type.
  Variable eqb : D -> D -> bool.        (* python == on task data *)
  Variable stop : D.                    (* 'stop waiting for new tasks' *)
  Variable SIZE : nat.

  (** where the master is: the while loop dispatching.py:43-53, the two for loops
      :55-65 (waiting for core i) and :68-70 (about to send the stop to core i), the barrier
      :80; MCrash is a failed assertion. *)
  Inductive mphase := MLoop | MWait (i : nat) | MStop (i : nat) | MBarrier | MCrash.

  (** where a slave is: blocked in recv :73, executing the method :77, about to
      send its rank :78, at the barrier :80. *)
  Inductive sphase := SWait | SWork (d : D) | SReply | SBarrier.

  Record disp := mkD {
    d_phase : mphase;
    d_tasks : list D;                 (* taskInputs *)
    d_status : list bool;             (* CORE_STATUS *)
    d_slave : nat -> sphase;
    d_m2s : nat -> list D;            (* messages in flight master -> slave i *)
    d_s2m : nat -> list nat;          (* messages in flight slave i -> master *)
    d_pool : nat -> list D            (* inputs whose results are in resultPOOL of core i, in order *)
  }.

  Definition set_phase c p := mkD p (d_tasks c) (d_status c) (d_slave c) (d_m2s c) (d_s2m c) (d_pool c).

  Inductive dstep : disp -> disp -> Prop :=
  (* :45-49 there is a free core: send it the next task *)
  | d_send c t ts k :
      d_phase c = MLoop -> d_tasks c = t :: ts -> index_true (d_status c) = Some k ->
      dstep c (mkD MLoop ts (update (d_status c) k false) (d_slave c)
                   (upd (d_m2s c) k (d_m2s c k ++ [t])) (d_s2m c) (d_pool c))
  (* :50-53 no free core: receive from any source *)
  | d_any c t ts i x rest :
      d_phase c = MLoop -> d_tasks c = t :: ts -> index_true (d_status c) = None ->
      1 <= i < SIZE -> d_s2m c i = x :: rest ->
      dstep c (mkD MLoop (d_tasks c) (update (d_status c) x true) (d_slave c) (d_m2s c)
                   (upd (d_s2m c) i rest) (d_pool c))
  (* :43 loop ends *)
  | d_loop_end c : d_phase c = MLoop -> d_tasks c = [] -> dstep c (set_phase c (MWait 1))
  (* :56-58 *)
  | d_wait_free c i : d_phase c = MWait i -> i < SIZE -> nth i (d_status c) false = true ->
      dstep c (set_phase c (MWait (S i)))
  (* :59-65 *)
  | d_wait_busy c i x rest : d_phase c = MWait i -> i < SIZE -> nth i (d_status c) false = false ->
      d_s2m c i = x :: rest ->
      dstep c (mkD (if x =? i then MWait (S i) else MCrash) (d_tasks c)
                   (update (d_status c) x true) (d_slave c) (d_m2s c)
                   (upd (d_s2m c) i rest) (d_pool c))
  | d_wait_end c : d_phase c = MWait SIZE -> dstep c (set_phase c (MStop 1))
  (* :68-70 *)
  | d_stop c i : d_phase c = MStop i -> i < SIZE -> nth i (d_status c) false = true ->
      dstep c (mkD (MStop (S i)) (d_tasks c) (d_status c) (d_slave c)
                   (upd (d_m2s c) i (d_m2s c i ++ [stop])) (d_s2m c) (d_pool c))
  | d_stop_crash c i : d_phase c = MStop i -> i < SIZE -> nth i (d_status c) false = false ->
      dstep c (set_phase c MCrash)
  | d_stop_end c : d_phase c = MStop SIZE -> dstep c (set_phase c MBarrier)
  (* slave: :72-75 *)
  | d_recv c i d rest : 1 <= i < SIZE -> d_slave c i = SWait -> d_m2s c i = d :: rest ->
      dstep c (mkD (d_phase c) (d_tasks c) (d_status c)
                   (upd (d_slave c) i (if eqb d stop then SBarrier else SWork d))
                   (upd (d_m2s c) i rest) (d_s2m c) (d_pool c))
  (* :77 *)
  | d_work c i d : 1 <= i < SIZE -> d_slave c i = SWork d ->
      dstep c (mkD (d_phase c) (d_tasks c) (d_status c) (upd (d_slave c) i SReply)
                   (d_m2s c) (d_s2m c) (upd (d_pool c) i (d_pool c i ++ [d])))
  (* :78 *)
  | d_reply c i : 1 <= i < SIZE -> d_slave c i = SReply ->
      dstep c (mkD (d_phase c) (d_tasks c) (d_status c) (upd (d_slave c) i SWait)
                   (d_m2s c) (upd (d_s2m c) i (d_s2m c i ++ [i])) (d_pool c)).

  (** :24-41 *)
  Definition d_init (tasks : list D) : disp :=
    mkD MLoop tasks (false :: repeat true (SIZE - 1)) (fun _ => SWait) (fun _ => []) (fun _ => []) (fun _ => []).

  (** everybody has reached the barrier :80 *)
  Definition d_final (c : disp) : Prop :=
    d_phase c = MBarrier /\ forall i, 1 <= i < SIZE -> d_slave c i = SBarrier.
End Dispatch.

(** * CHECK_SAME_IN_ALL_CORES *)

(** check_same_in_all_cores.py:23-40: [args] is the list of the argument tuples of the
    cores; the secretary's gathered data. The outcome is the same on every core because it is
    broadcast: [inl tt] = returns, [inr cores] = AssertionError naming the cores. *)
Definition CHECK_SAME {A} (eqb : A -> A -> bool) (args : list A) : unit + list nat :=
  match args with
  | [] => inl tt                       (* no core: not reachable, SIZE >= 1 *)
  | a0 :: _ =>
      let ASSERTION := map (fun a => eqb a a0) args in
      let not_same := filter (fun i => negb (nth i ASSERTION true)) (seq 0 (length args)) in
      if forallb (fun b => b) ASSERTION then inl tt else inr not_same
  end.
