(** Property theorems C34, C35, C36. *)
From Coq Require Import List Arith ZArith QArith Bool Lia.
From Coq.Floats Require Import SpecFloat.
From Verif Require Import Prelude IterModel IterSpec IterProofs.
Import ListNotations.
Local Open Scope nat_scope.

(** C34: whatever was interrupted where, and how often, the run from the saved table ends with the table of the
    uninterrupted run; it computes the missing steps once each and no other *)
Theorem C34_resume : forall T V add ltb (solver : T -> T -> output V) max_steps t0 dt0 initial,
  (forall i, i < max_steps -> ltb (time T add t0 dt0 i) (time T add t0 dt0 (S i)) = true) ->
  forall file fuel, max_steps <= fuel -> (forall i, 1 <= i <= max_steps -> goes_on T V add solver t0 dt0 i) ->
  saved T V add ltb solver (fun d => d) max_steps t0 dt0 initial file ->
  exists s m, run T V add ltb solver (fun d => d) max_steps fuel (call T V t0 dt0 initial file) = IDone T V s /\
    RDF T V s = table_to T V add solver t0 dt0 initial max_steps /\ t T V s = time T add t0 dt0 max_steps /\
    RDF T V (call T V t0 dt0 initial file) = table_to T V add solver t0 dt0 initial m /\ calls T V s = seq (S m) (max_steps - m).
Proof. exact resume_ok. Qed.
Print Assumptions C34_resume.
Definition solver34 (a b : nat) : output nat := mkO 0 (SBool false) true (a * 10 + b).
Definition run34 file := match run nat nat Nat.add Nat.ltb solver34 (fun d => d) 5 9 (call nat nat 10 2 7 file) with IDone _ _ s => Some (RDF _ _ s, calls _ _ s) | _ => None end.
Definition table34 := table_to nat nat Nat.add solver34 10 2 7.
(** a run killed in step 4, the one resuming it in step 5 *)
Example C34_ex : saved nat nat Nat.add Nat.ltb solver34 (fun d => d) 5 10 2 7 (Some (table34 4)) /\ run34 (Some (table34 4)) = Some (table34 5, [5])
  /\ run34 None = Some (table34 5, [1; 2; 3; 4; 5]) /\ nth_error (table34 5) 5 = Some (5, (20, 2, 200)).
Proof.
  split; [|vm_compute; repeat split].
  eapply (saved_iter _ _ _ _ _ _ _ _ _ _ (Some (table34 3)) 4); [|vm_compute; reflexivity|vm_compute; reflexivity].
  eapply (saved_iter _ _ _ _ _ _ _ _ _ _ None 3); [constructor|vm_compute; reflexivity|vm_compute; reflexivity].
Qed.
(** not so for an iterator whose dt changes from step to step: the passed steps do not change it *)
Theorem C34_varying_dt_refuted :
  ~ (forall T V add ltb (solver : T -> T -> output V) update_dt max_steps t0 dt0 initial file fuel s s',
     (forall a b, shut (solver a b) = SBool false /\ message_ok (solver a b) = true) ->
     saved T V add ltb solver update_dt max_steps t0 dt0 initial file ->
     run T V add ltb solver update_dt max_steps fuel (call T V t0 dt0 initial None) = IDone T V s ->
     run T V add ltb solver update_dt max_steps fuel (call T V t0 dt0 initial file) = IDone T V s' -> RDF T V s' = RDF T V s).
Proof.
  intros H.
  assert (HS : saved nat nat Nat.add Nat.ltb solver34 S 3 10 2 7 (Some [(0, (10, 2, 7)); (1, (12, 3, 112)); (2, (15, 4, 135))])).
  { eapply (saved_iter _ _ _ _ _ _ _ _ _ _ None 2); [constructor|vm_compute; reflexivity|vm_compute; reflexivity]. }
  assert (E : RDF nat nat (mkI nat nat 4 16 3 false None 0%Z [(0, (10, 2, 7)); (1, (12, 3, 112)); (2, (15, 4, 135)); (3, (16, 3, 156))] [3]) =
    RDF nat nat (mkI nat nat 4 19 5 false None 0%Z [(0, (10, 2, 7)); (1, (12, 3, 112)); (2, (15, 4, 135)); (3, (19, 5, 169))] [1; 2; 3])).
  { apply (H nat nat Nat.add Nat.ltb solver34 S 3 10 2 7 _ 4 _ _ ltac:(split; reflexivity) HS); vm_compute; reflexivity. }
  discriminate E.
Qed.
Print Assumptions C34_varying_dt_refuted.

(** C35: the iteration stops after the step whose solver returns True *)
Theorem C35_shut_down : forall T V add ltb (solver : T -> T -> output V) max_steps t0 dt0 initial,
  (forall i, i < max_steps -> ltb (time T add t0 dt0 i) (time T add t0 dt0 (S i)) = true) ->
  forall n m fuel, 1 <= n <= max_steps -> m < n -> (forall i, m < i < n -> goes_on T V add solver t0 dt0 i) -> n <= fuel ->
  shut (outputs_of T V add solver t0 dt0 n) = SBool true -> message_ok (outputs_of T V add solver t0 dt0 n) = true ->
  exists s, run T V add ltb solver (fun d => d) max_steps fuel
        (call T V t0 dt0 initial (Some (table_to T V add solver t0 dt0 initial m))) = IDone T V s /\
    RDF T V s = table_to T V add solver t0 dt0 initial n /\ calls T V s = seq (S m) (n - m) /\ shut_down_ T V s = true.
Proof. exact shut_down_ok. Qed.
Print Assumptions C35_shut_down.
Definition solver35 (v : shut_value) (a b : nat) : output nat := mkO 0 (if b =? 16 then v else SBool false) true (a * 10 + b).
Definition run35 v file := match run nat nat Nat.add Nat.ltb (solver35 v) (fun d => d) 5 9 (call nat nat 10 2 7 file) with IDone _ _ s => Some (calls _ _ s) | _ => None end.
Example C35_ex : run35 (SBool true) (Some (table34 1)) = Some [2; 3] /\ run35 (SBool true) None = Some [1; 2; 3].
Proof. split; reflexivity. Qed.
(** a solver giving a reason makes the run raise, always *)
Theorem C35_reason_refuted : forall T V add ltb (solver : T -> T -> output V) max_steps t0 dt0 initial,
  (forall i, i < max_steps -> ltb (time T add t0 dt0 i) (time T add t0 dt0 (S i)) = true) ->
  forall n m fuel w, 1 <= n <= max_steps -> m < n -> (forall i, m < i < n -> goes_on T V add solver t0 dt0 i) -> n <= fuel ->
  shut (outputs_of T V add solver t0 dt0 n) = SStr w ->
  run T V add ltb solver (fun d => d) max_steps fuel (call T V t0 dt0 initial (Some (table_to T V add solver t0 dt0 initial m))) = IRaised T V.
Proof. exact reason_raises. Qed.
Print Assumptions C35_reason_refuted.
Example C35_reason_ex : run nat nat Nat.add Nat.ltb (solver35 (SStr 4)) (fun d => d) 5 9 (call nat nat 10 2 7 None) = IRaised nat nat.
Proof. reflexivity. Qed.
(** and a run resumed after a shut down in step n computes all the following steps *)
Theorem C35_resumed_refuted : forall T V add ltb (solver : T -> T -> output V) max_steps t0 dt0 initial,
  (forall i, i < max_steps -> ltb (time T add t0 dt0 i) (time T add t0 dt0 (S i)) = true) ->
  forall n fuel, n <= max_steps -> max_steps <= fuel -> (forall i, n < i <= max_steps -> goes_on T V add solver t0 dt0 i) ->
  exists s, run T V add ltb solver (fun d => d) max_steps fuel
        (call T V t0 dt0 initial (Some (table_to T V add solver t0 dt0 initial n))) = IDone T V s /\
    RDF T V s = table_to T V add solver t0 dt0 initial max_steps /\ calls T V s = seq (S n) (max_steps - n).
Proof. exact resumed_shut_down. Qed.
Print Assumptions C35_resumed_refuted.
Example C35_resumed_ex : run35 (SBool true) (Some (table34 3)) = Some [4; 5].
Proof. reflexivity. Qed.

(** C36: in exact arithmetic, for dt and max_steps *)
Theorem C36_steps : forall t0 dt n mt, (0 < dt)%Q -> (0 < n)%Z ->
  parse exactQ t0 (Some dt) (Some n) mt = Some (dt, n, (t0 + dt * inject_Z n)%Q).
Proof. exact parse_steps. Qed.
Print Assumptions C36_steps.
(** for dt and max_time the least number of steps reaching max_time *)
Theorem C36_least : forall t0 dt mt, (0 < dt)%Q -> (t0 < mt)%Q -> exists n,
  parse exactQ t0 (Some dt) None (Some mt) = Some (dt, n, (t0 + dt * inject_Z n)%Q) /\ (0 < n)%Z /\ least_reaching t0 dt mt n.
Proof. exact parse_time. Qed.
Print Assumptions C36_least.
(** for max_steps and max_time *)
Theorem C36_both : forall t0 n mt, (t0 < mt)%Q -> (0 < n)%Z -> exists dt,
  parse exactQ t0 None (Some n) (Some mt) = Some (dt, n, mt) /\ (0 < dt)%Q /\ (t0 + dt * inject_Z n == mt)%Q.
Proof. exact parse_both. Qed.
Print Assumptions C36_both.
(** and whatever is accepted is consistent *)
Theorem C36_sound : forall t0 dt n mt dt' n' mt', parse exactQ t0 dt n mt = Some (dt', n', mt') ->
  (0 < dt' /\ t0 + dt' * inject_Z n' == mt')%Q /\ (0 < n')%Z.
Proof. exact parse_sound. Qed.
Print Assumptions C36_sound.
Example C36_ex : parse exactQ (1 # 2)%Q (Some (1 # 10)%Q) None (Some (123 # 100)%Q) = Some (1 # 10, 8%Z, 26 # 20)%Q /\
  parse exactQ 0%Q None (Some 49%Z) (Some 1%Q) = Some ((1 # 49)%Q, 49%Z, 1%Q) /\ parse exactQ 0%Q (Some 0%Q) (Some 4%Z) None = None.
Proof. vm_compute. repeat split. Qed.
(** in binary64: 49 steps up to time 1 are refused, *)
Theorem C36_accepts_refuted :
  ~ (forall t0 n mt, nltb floats t0 mt = true -> (0 < n)%Z -> (n < 100)%Z -> parse floats t0 None (Some n) (Some mt) <> None).
Proof. intros H. apply (H (of_int 0) 49%Z (of_int 1)); vm_compute; reflexivity. Qed.
Print Assumptions C36_accepts_refuted.
(** and the number of steps of 0.3 up to 2.1 is 8, although 7 of them reach it *)
Definition tenths (z : Z) : b64 := ndiv floats (of_int z) (of_int 10).
Theorem C36_least_refuted : exists mt,
  parse floats (of_int 0) (Some (tenths 3)) None (Some (tenths 21)) = Some (tenths 3, 8%Z, mt) /\
  nltb floats (nadd floats (of_int 0) (nmulz floats (tenths 3) (of_int 7))) (tenths 21) = false.
Proof. eexists. split; [vm_compute; reflexivity|]. vm_compute; reflexivity. Qed.
Print Assumptions C36_least_refuted.
