(** Properties C01-C06: core grouping, reduction tree, chaining, dispatching, checking. *)
From Coq Require Import List Arith ZArith Lia Bool Permutation.
From Verif Require Import Prelude GroupModel GroupProofs TreeModel TreeProofs SchedModel SchedProofs.
Import ListNotations.

(** C01 *)
Theorem C01_group_cores_partition : forall SIZE RANK member_num group_num,
  1 <= SIZE -> RANK < SIZE ->
  match group_num with None => True | Some k => (1 <= k <= Z.of_nat SIZE)%Z end ->
  exists dg, GROUP_CORES SIZE RANK member_num group_num = Some dg /\
    let blocks := map (fun p => fst p :: snd p) (members_of dg) in
    concat blocks = seq 0 SIZE /\
    group_number dg = length blocks /\
    leaders dg = map (hd 0) blocks /\
    (forall b1 b2, In b1 blocks -> In b2 blocks -> length b1 <= length b2 + 1) /\
    (exists b, In b blocks /\ In RANK b /\ my_leader dg = Some (hd 0 b)) /\
    match group_num with
    | Some k => Z.of_nat (group_number dg) = k
    | None => forall b, In b blocks -> (Z.of_nat (length b) <= Z.max 1 member_num)%Z
    end.
Proof. exact group_cores_correct. Qed.
Print Assumptions C01_group_cores_partition.

Theorem C01_group_cores_rejects : forall SIZE RANK member_num k,
  ~ (1 <= k <= Z.of_nat SIZE)%Z -> GROUP_CORES SIZE RANK member_num (Some k) = None.
Proof. exact (fun S R m k H => group_cores_none S R m (Some k) H). Qed.
Print Assumptions C01_group_cores_rejects.

(** all cores compute the same groups *)
Theorem C01_group_cores_agree : forall SIZE R1 R2 member_num group_num dg1 dg2,
  R1 < SIZE -> R2 < SIZE ->
  GROUP_CORES SIZE R1 member_num group_num = Some dg1 ->
  GROUP_CORES SIZE R2 member_num group_num = Some dg2 ->
  members_of dg1 = members_of dg2 /\ leaders dg1 = leaders dg2.
Proof. exact same_members. Qed.
Print Assumptions C01_group_cores_agree.

Example C01_ex : GROUP_CORES 10 5 4 None =
  Some (mkDG 3 [0; 4; 7] [(0, [1;2;3]); (4, [5;6]); (7, [8;9])] (Some 4)).
Proof. vm_compute. reflexivity. Qed.
Example C01_ex2 : GROUP_CORES 4 3 7 (Some 2%Z) = Some (mkDG 2 [0; 2] [(0, [1]); (2, [3])] (Some 2)).
Proof. vm_compute. reflexivity. Qed.

(** C02 *)
Theorem C02_tree_total : forall SIZE r, 1 <= SIZE -> r < SIZE -> exists l, TREE SIZE r = Some l.
Proof. exact tree_total. Qed.
Print Assumptions C02_tree_total.

Theorem C02_tree_send_matched : forall SIZE s d tag t ls, 1 <= SIZE -> s < SIZE ->
  TREE SIZE s = Some ls -> nth_error ls t = Some (Some (Send d tag)) ->
  d < s /\
  (exists ld, TREE SIZE d = Some ld /\ nth_error ld t = Some (Some (Recv s tag))) /\
  (forall t' a, t < t' -> nth_error ls t' = Some a -> a = None).
Proof. exact tree_matched. Qed.
Print Assumptions C02_tree_send_matched.

Theorem C02_tree_recv_matched : forall SIZE s d tag t ld, 1 <= SIZE -> d < SIZE ->
  TREE SIZE d = Some ld -> nth_error ld t = Some (Some (Recv s tag)) ->
  d < s < SIZE /\ exists ls, TREE SIZE s = Some ls /\ nth_error ls t = Some (Some (Send d tag)).
Proof. exact tree_matched_recv. Qed.
Print Assumptions C02_tree_recv_matched.

(** Under every interleaving (buffered sends) the reduction does not block before it is
    finished and rank 0 ends with the ordered combination of all contributions. *)
Theorem C02_tree_reduction : forall (V : Type) (zero : V) (add : V -> V -> V),
  (forall x y z, add x (add y z) = add (add x y) z) ->
  (forall x, add zero x = x) -> (forall x, add x zero = x) ->
  forall SIZE prog c0, 1 <= SIZE ->
  (forall r, r < SIZE -> TREE SIZE r = Some (prog r)) ->
  forall c, star (step V zero add prog SIZE) (init V c0) c ->
    (finished V prog SIZE c \/ exists c', step V zero add prog SIZE c c') /\
    (finished V prog SIZE c ->
       val V c 0 = fold_right add zero (map c0 (seq 0 SIZE)) /\
       (forall r, 0 < r < SIZE -> val V c r = zero) /\
       (forall s d tag, chan V c s d tag = [])).
Proof. exact tree_async. Qed.
Print Assumptions C02_tree_reduction.

Theorem C02_tree_terminates : forall (V : Type) (zero : V) (add : V -> V -> V),
  (forall x y z, add x (add y z) = add (add x y) z) ->
  (forall x, add zero x = x) -> (forall x, add x zero = x) ->
  forall SIZE prog c0, 1 <= SIZE ->
  (forall r, r < SIZE -> TREE SIZE r = Some (prog r)) ->
  forall n c, nsteps (step V zero add prog SIZE) n (init V c0) c ->
  n <= SIZE * length (prog 0).
Proof. exact tree_bounded. Qed.
Print Assumptions C02_tree_terminates.

(** The same with blocking (rendezvous) sends. *)
Theorem C02_tree_reduction_rendezvous : forall (V : Type) (zero : V) (add : V -> V -> V),
  (forall x y z, add x (add y z) = add (add x y) z) ->
  (forall x, add zero x = x) -> (forall x, add x zero = x) ->
  forall SIZE prog c0, 1 <= SIZE ->
  (forall r, r < SIZE -> TREE SIZE r = Some (prog r)) ->
  forall c, star (rstep V zero add prog SIZE) (init V c0) c ->
    (finished V prog SIZE c \/ exists c', rstep V zero add prog SIZE c c') /\
    (finished V prog SIZE c -> val V c 0 = fold_right add zero (map c0 (seq 0 SIZE))).
Proof. exact tree_rendezvous. Qed.
Print Assumptions C02_tree_reduction_rendezvous.

(** contributions as lists: rank 0 ends with [0; 1; ...; SIZE-1], each exactly once *)
Example C02_monoid_ex : forall SIZE prog, 1 <= SIZE ->
  (forall r, r < SIZE -> TREE SIZE r = Some (prog r)) ->
  forall c, star (step (list nat) [] (@app nat) prog SIZE) (init (list nat) (fun r => [r])) c ->
  finished (list nat) prog SIZE c -> val (list nat) c 0 = seq 0 SIZE.
Proof.
  intros SIZE prog HS HT c H F.
  destruct (tree_async (list nat) [] (@app nat) (@app_assoc nat) (fun x => eq_refl) (@app_nil_r nat)
              SIZE prog (fun r => [r]) HS HT c H) as (_ & K).
  destruct (K F) as (E & _). rewrite E. clear.
  generalize (seq 0 SIZE). induction l as [|a l IH]; [reflexivity|]. simpl. rewrite IH. reflexivity.
Qed.
Example C02_tree_ex : TREE 5 4 = Some [None; None; Some (Send 0 0)].
Proof. vm_compute. reflexivity. Qed.
Example C02_tree_ex0 : TREE 5 0 = Some [Some (Recv 1 0); Some (Recv 2 0); Some (Recv 4 0)].
Proof. vm_compute. reflexivity. Qed.
Example C02_tree_ex1 : TREE 1 0 = Some [None].
Proof. vm_compute. reflexivity. Qed.

(** C03 *)
Theorem C03_chaining_in_rank_order : forall SIZE prog, 1 <= SIZE ->
  (forall r, r < SIZE -> CHAINING SIZE r = Some (prog r)) ->
  forall c, star (chain_step SIZE prog) chain_init c ->
    (exists rest, flat_map (fun r => [Begin r; End_ r]) (seq 0 SIZE) = ch_trace c ++ rest) /\
    (chain_done SIZE prog c \/ exists c', chain_step SIZE prog c c') /\
    (chain_done SIZE prog c -> ch_trace c = flat_map (fun r => [Begin r; End_ r]) (seq 0 SIZE)).
Proof. exact chaining_correct. Qed.
Print Assumptions C03_chaining_in_rank_order.

Theorem C03_chaining_terminates : forall SIZE, 1 <= SIZE -> forall prog,
  (forall r, r < SIZE -> CHAINING SIZE r = Some (prog r)) ->
  forall c n, nsteps (chain_step SIZE prog) n chain_init c -> n <= 4 * SIZE.
Proof. exact chain_bound. Qed.
Print Assumptions C03_chaining_terminates.

Theorem C03_chaining_total : forall SIZE, 1 <= SIZE -> forall r, r < SIZE -> CHAINING SIZE r <> None.
Proof. exact chaining_total. Qed.
Print Assumptions C03_chaining_total.

Example C03_ex : map (CHAINING 3) [0; 1; 2] =
  [Some [IBegin; IEnd; ISend 1 0]; Some [IRecv 0 0; IBegin; IEnd; ISend 2 1]; Some [IRecv 1 1; IBegin; IEnd]].
Proof. reflexivity. Qed.

(** C04 *)
Theorem C04_dispatching_exactly_once : forall D eqb stop SIZE tasks, 3 <= SIZE ->
  (forall t, In t tasks -> eqb t stop = false) -> eqb stop stop = true ->
  forall c, star (dstep D eqb stop SIZE) (d_init D SIZE tasks) c ->
    d_phase D c <> MCrash /\
    (d_final D SIZE c \/ exists c', dstep D eqb stop SIZE c c') /\
    (d_final D SIZE c -> Permutation (concat (map (d_pool D c) (seq 1 (SIZE - 1)))) tasks).
Proof. exact dispatch_correct. Qed.
Print Assumptions C04_dispatching_exactly_once.

Theorem C04_dispatching_terminates : forall D eqb stop SIZE tasks, 3 <= SIZE ->
  (forall t, In t tasks -> eqb t stop = false) -> eqb stop stop = true ->
  forall n c, nsteps (dstep D eqb stop SIZE) n (d_init D SIZE tasks) c ->
  n <= 5 * length tasks + 3 * SIZE + 10.
Proof. exact dispatch_terminates. Qed.
Print Assumptions C04_dispatching_terminates.

Example C04_ex : (forall t, In t [5; 6; 7; 8] -> Nat.eqb t 0 = false) /\ Nat.eqb 0 0 = true /\ 3 <= 4.
Proof. simpl. intuition (subst; auto). Qed.

(** C05: a task equal to the stop message blocks the program for ever *)
Theorem C05_dispatching_any_task_refuted :
  exists (tasks : list nat) c,
    star (dstep nat Nat.eqb 0 3) (d_init nat 3 tasks) c /\
    ~ d_final nat 3 c /\ forall c', ~ dstep nat Nat.eqb 0 3 c c'.
Proof. exact dispatch_stuck. Qed.
Print Assumptions C05_dispatching_any_task_refuted.

(** C06 *)
Theorem C06_check_same_iff : forall (A : Type) (eqb : A -> A -> bool) a0 args,
  (forall x y, eqb x y = true <-> x = y) ->
  CHECK_SAME eqb (a0 :: args) = inl tt <-> forall a, In a (a0 :: args) -> a = a0.
Proof. exact @check_same_ok. Qed.
Print Assumptions C06_check_same_iff.

Theorem C06_check_same_report : forall (A : Type) (eqb : A -> A -> bool) a0 args cores,
  (forall x y, eqb x y = true <-> x = y) ->
  CHECK_SAME eqb (a0 :: args) = inr cores ->
  forall i, In i cores <-> exists a, nth_error (a0 :: args) i = Some a /\ a <> a0.
Proof. exact @check_same_report. Qed.
Print Assumptions C06_check_same_report.

Example C06_ex : CHECK_SAME Nat.eqb [4; 4; 5; 4; 6] = inr [2; 4].
Proof. reflexivity. Qed.
