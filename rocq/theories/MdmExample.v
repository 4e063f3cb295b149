(** Concrete multi-dimensional matrices and systems. *)
From Coq Require Import List Arith ZArith QArith Bool Lia Permutation.
From Verif Require Import Prelude RingSum StopModel StopSpec MdmModel MdmSpec MdmProofs MdmProofs2 MdmProofs3 MdmProofs5 MdmProofs6.
Import ListNotations.
Local Open Scope nat_scope.

(** forms 10, 11: tests; 1, 2: unknowns; 2, 1, 3, 2 basis functions *)
Definition nb0 (f : form) : nat := match f with 1 => 3 | 10 => 2 | 11 => 1 | _ => 2 end.
(** axes: unknown 1, test 10, unknown 2 *)
Definition m0 : mdm ZR := mkMdm ZR [1; 10; 2] (fun e a =>
  match a with [i; j; k] => Z.of_nat (e + 1 + 5 * i + 2 * j * k + i * k) | _ => 0%Z end).
Definition x1 : local ZR := fun e i => (Z.of_nat (e + i) - 1)%Z.
Definition x2 : local ZR := fun e i => (2 - Z.of_nat (e * i))%Z.
Definition y10 : local ZR := fun e i => (3 * Z.of_nat i + 1)%Z.

Example eliminate_ex : option_map (fun m => (cor ZR m, map (arr ZR m 1) [[0; 0]; [2; 1]])) (eliminate ZR nb0 m0 1 y10)
  = Some ([1; 2], [10; 78]%Z).
Proof. vm_compute. reflexivity. Qed.
Example evaluate_all_ex : evaluate ZR nb0 [[0; 1]; [2]] m0 [(2, x2); (10, y10); (7, x1); (1, x1)] = Some (EReal ZR 1314%Z).
Proof. vm_compute. reflexivity. Qed.
Example evaluate_twice_ex : evaluate ZR nb0 [[0; 1]; [2]] m0 [(2, x2); (10, x1); (1, x1); (10, y10)] = Some (EReal ZR 1314%Z)
  /\ evaluate ZR nb0 [[0; 1]; [2]] m0 [(2, x2); (10, x1); (1, x1)] <> Some (EReal ZR 1314%Z).
Proof. split; [vm_compute; reflexivity|]. vm_compute. congruence. Qed.
Definition vec_of (o : option (evaluated ZR)) : option (list Z) :=
  match o with Some (EVec _ v) => Some (map (v 1) [0; 1]) | _ => None end.
Example evaluate_one_ex : vec_of (evaluate ZR nb0 [] m0 [(2, x2); (1, x1)]) = Some [98; 104]%Z.
Proof. vm_compute. reflexivity. Qed.
Example reduce_ex : option_map (fun v : local ZR => map (v 1) [0; 1; 2])
  (reduce_to_vector ZR nb0 m0 1 (fun f => match f with 2 => x2 | _ => y10 end)) = Some [38; 118; 198]%Z.
Proof. vm_compute. reflexivity. Qed.
Example derivative_ex :
  match derivative_contribution_to ZR nb0 m0 10 1 [(2, x2)] with
  | Some (Some (f, g, M)) => Some (f, g, map (fun r => map (M 1 r) [0; 1; 2]) [0; 1]) | _ => None end
  = Some (10, 1, [[6; 22; 38]; [8; 24; 40]]%Z).
Proof. vm_compute. reflexivity. Qed.

(** a form twice: only its first axis is eliminated *)
Definition m1 : mdm ZR := mkMdm ZR [1; 1] (fun _ a => match a with [i; j] => Z.of_nat (i + 2 * j) | _ => 0%Z end).
Lemma repeated_refuted :
  ~ (forall (K : CRing) nb cores (m : mdm K) pairs, NoDup (map fst pairs) -> (forall f, In f (cor K m) -> In f (map fst pairs)) ->
       exists x, evaluate K nb cores m pairs = Some (EReal K x)).
Proof.
  intros H. destruct (H ZR nb0 [[0]] m1 [(1, x1)]) as (x & E).
  - simpl. repeat constructor; simpl; tauto.
  - simpl. intuition.
  - discriminate E.
Qed.

(** a system of two equations for two unknowns on two elements *)
Definition A00 : lmat ZR := fun e r c => Z.of_nat (r + 2 * c + e).
Definition A11 : lmat ZR := fun e r c => Z.of_nat (1 + c).
Definition s0 : nls ZR := mkNls ZR [10; 11] [1; 2] [[Some A00; None]; [None; Some A11]] [[m0; mdm_neg ZR m0]; []]
  [BVec ZR y10; BNone ZR].
Lemma s0_usable : usable ZR s0 /\ trilinear ZR s0.
Proof.
  split; [split; [vm_compute; reflexivity|]|].
  - split; [repeat constructor; simpl; intuition discriminate|]. split; [reflexivity|]. split; [simpl; intuition discriminate|].
    intros [|[|i]] Hi; simpl in Hi; [left; discriminate| |lia]. right. left. exists 1, A11. split; [simpl; lia|reflexivity].
  - intros [|[|i]] m; simpl; [|tauto|destruct i; simpl; tauto]. intros [<-|[<-|[]]]; reflexivity.
Qed.
(** numbering: unknown 1 has the dofs 0..4 (one shared by the two elements), unknown 2 the dofs 5..8 *)
Definition gu0 (j e r : nat) : nat := match j with 0 => 2 * e + r | _ => 5 + 2 * e + r end.
Definition gt0 (i e r : nat) : nat := match i with 0 => e + r | _ => 3 + e end.
Lemma s0_numbering : numbering ZR nb0 [0; 1] gu0 s0 9.
Proof. intros [|[|j]] e r Hj [<-|[<-|[]]] Hr; cbn in Hj, Hr |- *; lia. Qed.
Example s0_residual : option_map (map (fun v : local ZR => map (v 1) [0; 1])) (evaluate_f ZR nb0 s0 [x1; x2] true) = Some [[-12; -12]; [-4; -4]]%Z.
Proof. vm_compute. reflexivity. Qed.
Definition entries (o : option ((nat -> nat -> ZR) * (nat -> ZR))) : option (list (list Z) * list Z) :=
  option_map (fun p => (map (fun R => map (fst p R) (seq 0 9)) (seq 0 5), map (snd p) (seq 0 5))) o.
(** one of the two opposite terms only, row 1 fixed *)
Definition s0' : nls ZR := mkNls ZR [10; 11] [1; 2] [[Some A00; None]; [None; Some A11]] [[m0]; []] [BVec ZR y10; BNone ZR].
Example s0_system : entries (newton_system ZR nb0 [0; 1] gt0 gu0 s0' [1] (fun i => Z.of_nat i)) = Some
  ([[11; 74; 137; 0; 0; 28; 33; 0; 0]; [0; 1; 0; 0; 0; 0; 0; 0; 0]; [0; 0; 48; 133; 218; 0; 0; 73; 102];
    [0; 0; 0; 0; 0; 1; 2; 0; 0]; [0; 0; 0; 0; 0; 0; 0; 1; 2]]%Z, [-347; 0; -1363; -17; -23]%Z).
Proof. vm_compute. reflexivity. Qed.

(** the constructor accepts the right hand side 0 *)
Definition s1 : nls ZR := mkNls ZR [11] [2] [[Some A11]] [[]] [BZero ZR].
Lemma zero_rhs_refuted :
  ~ (forall (K : CRing) nb (s : nls K) xs, nls_ok K s = true -> NoDup (unknowns K s) -> length (bs K s) = length (tests K s) ->
       length xs = length (unknowns K s) ->
       (forall i, i < length (tests K s) -> exists j M, j < length (unknowns K s) /\ block K s i j = Some M) ->
       exists f, evaluate_f K nb s xs true = Some f).
Proof.
  intros H. destruct (H ZR nb0 s1 [x2]) as (f & E); try reflexivity.
  - repeat constructor; simpl; tauto.
  - intros [|i] Hi; simpl in Hi; [|lia]. exists 0, A11. split; [simpl; lia|reflexivity].
  - discriminate E.
Qed.

(** * one Newton step: x_0 free, x_1 = x_0 *)
Definition nb2 (f : form) : nat := 2.
Definition A2 : lmat ZR := fun _ r c => match r, c with 0, 0 => 1%Z | 1, 0 => (-1)%Z | 1, 1 => 1%Z | _, _ => 0%Z end.
Definition s2 : nls ZR := mkNls ZR [10] [1] [[Some A2]] [[]] [BNone ZR].
Definition g2 (j e r : nat) : nat := r.
(** forward substitution *)
Definition corr2 (x : nat -> Z) (fixed : list nat) : nat -> Z :=
  let d0 := if mem 0 fixed then 0%Z else (- x 0%nat)%Z in
  fun i => match i with 0 => d0 | 1 => if mem 1 fixed then 0%Z else (d0 + (x 0%nat - x 1%nat))%Z | _ => 0%Z end.
Lemma s2_usable : usable ZR s2 /\ trilinear ZR s2.
Proof.
  split; [split; [vm_compute; reflexivity|]|].
  - split; [repeat constructor; simpl; tauto|]. split; [reflexivity|]. split; [simpl; intuition discriminate|].
    intros [|i] Hi; simpl in Hi; [|lia]. right. left. exists 0, A2. split; [simpl; lia|reflexivity].
  - intros [|[|i]] m; simpl; try tauto.
Qed.
Lemma s2_numbering : numbering ZR nb2 [0] g2 s2 2.
Proof. intros j e r _ _ H. unfold nb2 in H. unfold g2. exact H. Qed.
Lemma s2_exact : exact_solver ZR nb2 [0] g2 g2 s2 2 corr2.
Proof.
  intros x fixed A b E. injection E as <- <-. intros [|[|R]] HR; [| |lia]; cbv -[Z.add Z.mul Z.opp Z.sub mem];
    destruct (mem 0 fixed), (mem 1 fixed); ring.
Qed.
Definition norm2 (x : nat -> Z) : fl := Some (inject_Z (Z.abs (x 0%nat) + Z.abs (x 1%nat))).
Definition result2 (r : nresult ZR) := match r with NDone _ x info beta i => Some (map x [0; 1], info, beta, i) | NRunning _ => None end.
(** without prescribed values one step solves the linear system *)
Example s2_run : result2 (newton_raphson ZR corr2 norm2 5 [NoEval ZR 0] (1 # 2) (MInt 5) (fun i => match i with 0 => 7%Z | _ => 3%Z end))
  = Some ([7; 7]%Z, 0%Z, Some 0%Q, 2).
Proof. vm_compute. reflexivity. Qed.
(** x_0 := 5 prescribed, start 0: "converged" after one iteration with x = (5, 0) *)
Lemma fixed_solution_refuted :
  ~ (forall (K : CRing) nb els gt gu (s : nls K) n corr norm cs x0 atol mx fuel x info beta i,
       usable K s -> trilinear K s -> numbering K nb els gu s n -> exact_solver K nb els gt gu s n corr ->
       (1 <= mx)%Z -> Z.to_nat mx <= fuel ->
       newton_raphson K corr norm fuel cs atol (MInt mx) x0 = NDone K x info beta i -> info = 0%Z ->
       (forall j, step_of K corr (no_eval K cs) x0 (guesses K cs x0) (i - 1) j = r0) ->
       forall R, R < n -> ~ In R (no_eval K cs) -> F K nb els gt gu s x R = r0).
Proof.
  intros H.
  set (cs := set_fixed_solution ZR [] 0 5%Z).
  destruct s2_usable as [U T].
  destruct (newton_raphson ZR corr2 norm2 5 cs (1 # 2) (MInt 5) (fun _ => 0%Z)) as [x info beta i|] eqn:E.
  2:{ vm_compute in E. discriminate. }
  assert (result2 (newton_raphson ZR corr2 norm2 5 cs (1 # 2) (MInt 5) (fun _ => 0%Z)) = Some ([5; 0]%Z, 0%Z, Some 0%Q, 1)) as E2
    by (vm_compute; reflexivity).
  rewrite E in E2. cbn [result2 map] in E2. injection E2 as Ea Eb Ei _ Ej.
  assert (F ZR nb2 [0] g2 g2 s2 x 1 = r0) as E3.
  { apply (H ZR nb2 [0] g2 g2 s2 2 corr2 norm2 cs (fun _ => 0%Z) (1 # 2) 5%Z 5 x info beta i U T s2_numbering s2_exact ltac:(lia) ltac:(cbn; lia) E Ei).
    - subst i. intros [|[|j]]; reflexivity.
    - lia.
    - cbn. intuition discriminate. }
  cbv [F gather_rows residual linear_part nonlinear_part rhs_part bsum s2 nb2 g2 locals block term_row tests unknowns
       blocks terms bs length seq map nth fold_right Nat.eqb A2 radd rmul rsub r0 ZR] in E3.
  rewrite Ea, Eb in E3. discriminate E3.
Qed.
