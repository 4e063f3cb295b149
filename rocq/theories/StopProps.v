(** Property theorems C29, C33, C69. *)
From Coq Require Import List Arith ZArith QArith Bool Lia.
From Verif Require Import Prelude RingSum StopModel StopSpec StopProofs.
Import ListNotations.
Local Open Scope nat_scope.

(** C29: with an int maxiter the loop breaks, after at most maxiter iterations, in the first one with a reason to stop *)
Theorem C29_stop : forall beta tol atol n fuel, (tol < 1 # 100)%Q -> Z.to_nat n < fuel ->
  exists i j info, solve fuel beta tol atol (MInt n) = Done i j info /\ stops_at beta tol atol n i j info /\ i <= Z.to_nat n.
Proof. exact solve_int. Qed.
Print Assumptions C29_stop.
Definition b29 (k : nat) : fl := Some (1 # Pos.pow 4 (Pos.of_nat k)).
Example C29_ex : solve 60 b29 (1 # 1000) (1 # 1000000) (MInt 50) = Done 10 1 0 /\ solve 60 b29 (1 # 1000) (1 # 1000000) (MInt 7) = Done 7 2 7
  /\ solve 60 (fun k => Some (inject_Z (60 ^ Z.of_nat k))) (1 # 1000) (1 # 1000000) (MInt 50) = Done 2 3 (-1)
  /\ solve 60 (fun k => if k <? 22 then b29 k else Some (1 # 4398046511104)) (1 # 1000) (1 # 4398046511105) (MInt 50) = Done 24 5 24
  /\ solve 60 (fun k => nth k [Some 1%Q; Some (1 # 2)] (Some (51 # 100))) (1 # 1000) (1 # 1000000) (MInt 50) = Done 3 5 3
  /\ solve 60 (fun _ => None) (1 # 1000) (1 # 1000000) (MInt 50) = Done 50 2 50.
Proof. vm_compute. repeat split. Qed.

(** a str maxiter is obeyed whatever the residuals and tolerances are *)
Theorem C29_forced : forall beta tol atol n fuel, Z.to_nat n < fuel ->
  solve fuel beta tol atol (MStr n) = Done (Z.to_nat n) 2 (Z.of_nat (Z.to_nat n)).
Proof. exact solve_str. Qed.
Print Assumptions C29_forced.
Example C29_forced_ex : solve 60 b29 1 1 (MStr 33) = Done 33 2 33.
Proof. reflexivity. Qed.

(** a relative tolerance that is too large is refused *)
Theorem C29_large_tol : forall beta tol atol n fuel, ~ (tol < 1 # 100)%Q -> 0 < fuel -> solve fuel beta tol atol (MInt n) = Raised.
Proof. exact solve_large_tol. Qed.
Print Assumptions C29_large_tol.
Example C29_large_tol_ex : solve 5 b29 (1 # 100) (1 # 1000) (MInt 3) = Raised.
Proof. reflexivity. Qed.

(** info 0 does not mean that the residual is below atol: a residual that hardly fell gives 0 too *)
Theorem C29_info_zero_refuted :
  ~ (forall beta tol atol n fuel i j, (tol < 1 # 100)%Q -> (1 <= n)%Z -> solve fuel beta tol atol (MInt n) = Done i j 0 -> below (beta i) atol).
Proof.
  intros H.
  specialize (H (fun k => if k =? 0 then Some 1%Q else Some (9999 # 10000)) (1 # 1000)%Q (1 # 1000000)%Q 50%Z 60 1 4 eq_refl ltac:(lia) eq_refl).
  destruct H as (x & E & L). injection E as <-. vm_compute in L. discriminate.
Qed.
Print Assumptions C29_info_zero_refuted.

(** C33: the Newton loop breaks, after at least one and at most maxiter iterations, in the first one with a reason to
    stop; it returns the start with the prescribed values plus the corrections, and the norm of the last one *)
Theorem C33_newton : forall K correction norm cs x0 n atol fuel, (1 <= n)%Z -> Z.to_nat n <= fuel ->
  let it := iterate K correction (no_eval K cs) x0 (guesses K cs x0) in
  let nrm := fun k => norm (step_of K correction (no_eval K cs) x0 (guesses K cs x0) k) in
  exists i info, newton_raphson K correction norm fuel cs atol (MInt n) x0 = NDone K (it i) info (nrm (i - 1)) i /\
    1 <= i <= Z.to_nat n /\ newton_stops_at nrm atol n i info.
Proof. exact newton_ok. Qed.
Print Assumptions C33_newton.
(** in particular *)
Theorem C33_info_zero : forall K correction norm cs x0 n atol fuel x info beta i, (1 <= n)%Z -> Z.to_nat n <= fuel ->
  newton_raphson K correction norm fuel cs atol (MInt n) x0 = NDone K x info beta i ->
  (info = 0%Z <-> below beta atol) /\ (0 < info -> info = Z.of_nat i /\ i = Z.to_nat n)%Z.
Proof. exact newton_info. Qed.
Print Assumptions C33_info_zero.
Theorem C33_forced : forall K correction norm cs x0 n atol fuel, (1 <= n)%Z -> Z.to_nat n <= fuel ->
  newton_raphson K correction norm fuel cs atol (MStr n) x0 =
    NDone K (iterate K correction (no_eval K cs) x0 (guesses K cs x0) (Z.to_nat n)) n
      (norm (step_of K correction (no_eval K cs) x0 (guesses K cs x0) (Z.to_nat n - 1))) (Z.to_nat n).
Proof. exact newton_forced. Qed.
Print Assumptions C33_forced.
(** solving 3 x_0 = 12 + x_1 and 2 x_1 = 6 by integer steps, halving the error roughly *)
Definition corr33 (x : vec ZR) (fixed : list nat) : vec ZR :=
  fun i => if existsb (Nat.eqb i) fixed then 0%Z
           else match i with 0 => ((12 + x 1%nat - 3 * x 0%nat) / 4)%Z | 1 => ((6 - 2 * x 1%nat) / 4)%Z | _ => 0%Z end.
Definition norm33 (x : vec ZR) : fl := Some (inject_Z (Z.abs (x 0%nat) + Z.abs (x 1%nat))).
Definition result33 (r : nresult ZR) := match r with NDone _ x info beta i => Some (map x [0; 1], info, beta, i) | NRunning _ => None end.
Example C33_ex : result33 (newton_raphson ZR corr33 norm33 20 [] (1 # 2) (MInt 20) (fun _ => 40%Z)) = Some ([5; 3]%Z, 0%Z, Some 0%Q, 7)
  /\ result33 (newton_raphson ZR corr33 norm33 20 [] (1 # 2) (MInt 3) (fun _ => 40%Z)) = Some ([9; 7]%Z, 3%Z, Some 10%Q, 3)
  /\ result33 (newton_raphson ZR corr33 norm33 20 [] (1 # 2) (MStr 15) (fun _ => 40%Z)) = Some ([5; 3]%Z, 15%Z, Some 0%Q, 15).
Proof. vm_compute. repeat split. Qed.

(** C69: a dof with a fixed solution ends with its value if the corrections vanish at the dofs that are not evaluated *)
Theorem C69_fixed_solution : forall (K : CRing) correction norm cs x0 mx atol fuel x info beta ITER i,
  (forall y l d, In d l -> correction y l d = r0) -> In i (no_eval K cs) ->
  newton_raphson K correction norm fuel cs atol mx x0 = NDone K x info beta ITER ->
  x i = prescribed K cs i (x0 i).
Proof. exact newton_fixed. Qed.
Print Assumptions C69_fixed_solution.
Example C69_ex : result33 (newton_raphson ZR corr33 norm33 20 (set_fixed_solution ZR [] 1 9%Z) (1 # 2) (MInt 20) (fun _ => 40%Z)) = Some ([7; 9]%Z, 0%Z, Some 0%Q, 5).
Proof. reflexivity. Qed.
(** but the prescribed values do not take part in the first linearization *)
Theorem C69_first_step_refuted :
  ~ (forall (K : CRing) correction norm cs x0 atol n fuel x info beta ITER,
     newton_raphson K correction norm fuel cs atol (MStr n) x0 = NDone K x info beta ITER ->
     x = iterate K correction (no_eval K cs) (guesses K cs x0) (guesses K cs x0) ITER).
Proof.
  intros H.
  specialize (H ZR corr33 norm33 (set_fixed_solution ZR [] 1 9%Z) (fun _ => 40%Z) 1%Q 1%Z 20 _ _ _ _ eq_refl).
  apply (f_equal (fun x => x 0)) in H. vm_compute in H. discriminate.
Qed.
Print Assumptions C69_first_step_refuted.
