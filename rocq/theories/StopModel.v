(** Model of the stop criteria and of the outer loops that use them:
    tools/miLinearAlgebra/solvers/regular/GMRES/helpers/components/stop_criterion.py, the loop heads of
    GMRES/helpers/{mpi_v0,mpi_v1}.py, LGMRES/helpers/mpi_v0.py and BiCGSTAB/helpers/mpi_v0.py, and
    tools/miLinearAlgebra/nonlinearSystem/solve/NewtonRaphson/{regular,helpers/stop_criterion}.py.
    A float is a rational or nan; rounding and overflow are not modelled. The residual norms a solver produces
    are an arbitrary stream. *)
From Coq Require Import List Arith ZArith QArith Bool.
From Verif Require Import Prelude RingSum.
Import ListNotations.

(** * floats: [None] is nan, every comparison with nan is False, division by zero gives nan. (numpy gives inf for
    x/0 with x <> 0; the code only tests [x / y < tol] with x >= 0, False for inf too.) *)
Definition fl := option Q.
Definition Qltb (a b : Q) : bool := negb (Qle_bool b a).
Definition flt (a b : fl) : bool := match a, b with Some x, Some y => Qltb x y | _, _ => false end.
Definition fsub (a b : fl) : fl := match a, b with Some x, Some y => Some (x - y)%Q | _, _ => None end.
Definition fmul (a b : fl) : fl := match a, b with Some x, Some y => Some (x * y)%Q | _, _ => None end.
Definition fdiv (a b : fl) : fl :=
  match a, b with Some x, Some y => if Qeq_bool y 0 then None else Some (x / y)%Q | _, _ => None end.
Definition num (q : Q) : fl := Some q.

(** maxiter: an int, or a numeric str holding that int *)
Inductive maxit := MInt (n : Z) | MStr (n : Z).

(** what one call of the criterion does: raise, stop_iteration False, or stop with (JUDGE, info) *)
Inductive verdict := VRaise | VGo | VStop (judge : nat) (info : Z).

(** BETA[-k] *)
Definition back (k : nat) (BETA : list fl) : fl := nth (length BETA - k) BETA None.
(** BETA[-k:] *)
Definition tail_of (k : nat) (BETA : list fl) : list fl := skipn (length BETA - k) BETA.

(** * stop_criterion.py (GMRES) *)
(** lines 43-53 *)
Definition judge_3 (BETA : list fl) : bool :=
  if flt (back 2 BETA) (back 1 BETA) then
    if flt (num 1) (back 2 BETA) && flt (fmul (num 100) (back 2 BETA)) (fsub (back 1 BETA) (back 2 BETA)) then true
    else if flt (num 10000000) (back 1 BETA) then true
    else if flt (num 100) (fsub (back 1 BETA) (back 2 BETA)) then true
    else false
  else false.
(** lines 56-63 *)
Definition judge_4 (tol : Q) (BETA : list fl) : bool :=
  let beta0 := nth 0 BETA None in
  let beta := back 1 BETA in
  if flt beta beta0 then flt (fdiv (fsub beta0 beta) beta0) (num tol) else false.
(** lines 77-92 *)
Fixpoint slow_list (tol : Q) (CHECKS : list fl) : list bool :=
  match CHECKS with
  | OLD :: ((NEW :: _) as rest) =>
      (if flt (fsub OLD NEW) (num 0) then true else flt (fdiv (fsub OLD NEW) OLD) (num tol)) :: slow_list tol rest
  | _ => []
  end.
(** lines 66-105 *)
Definition judge_5 (tol : Q) (BETA : list fl) : bool :=
  if 5 <=? length BETA then
    let CHECKS := if 10 <? length BETA then tail_of 8 BETA else tl BETA in
    let JUDGES := slow_list tol CHECKS in
    let cT := length (filter (fun b => b) JUDGES) in
    let cF := length (filter negb JUDGES) in
    if 3 <=? cT then true else if cF <=? cT then true else false
  else false.
(** lines 4-150. The assertion of line 33 is evaluated for an int maxiter only. *)
Definition gmres_stop (tol atol : Q) (ITER : nat) (mx : maxit) (BETA : list fl) : verdict :=
  match mx with
  | MStr n => if (n <=? Z.of_nat ITER)%Z then VStop 2 (Z.of_nat ITER) else VGo
  | MInt n =>
      if negb (Qltb tol (1 # 100)) then VRaise
      else if flt (back 1 BETA) (num atol) then VStop 1 0
      else if (n <=? Z.of_nat ITER)%Z then VStop 2 (Z.of_nat ITER)
      else if judge_3 BETA then VStop 3 (-1)
      else if judge_4 tol BETA then VStop 4 0
      else if judge_5 tol BETA then VStop 5 (Z.of_nat ITER)
      else VGo
  end.

(** the result of an outer loop: an assertion failed, or the loop broke with ITER, JUDGE and info. [Running]: the
    model's fuel is used up. *)
Inductive outcome := Raised | Done (ITER judge : nat) (info : Z) | Running.

(** GMRES/helpers/mpi_v0.py:100-106 and the same lines of the other three solvers *)
Definition push_beta (BETA : option (list fl)) (beta : fl) : list fl :=
  let BETA := match BETA with None => [beta] | Some l => l end in
  let BETA := if 20 <? length BETA then firstn 1 BETA ++ tail_of 2 BETA else BETA in
  BETA ++ [beta].
(** the loop of the four solvers, [beta ITER] being the residual norm the solver has after ITER outer iterations.
    BiCGSTAB increases ITER before, the others after the work of the iteration. *)
Fixpoint outer (fuel : nat) (beta : nat -> fl) (tol atol : Q) (mx : maxit) (ITER : nat) (BETA : option (list fl)) : outcome :=
  match fuel with
  | O => Running
  | S fuel' =>
      let BETA := push_beta BETA (beta ITER) in
      match gmres_stop tol atol ITER mx BETA with
      | VRaise => Raised
      | VStop j info => Done ITER j info
      | VGo => outer fuel' beta tol atol mx (S ITER) (Some BETA)
      end
  end.
Definition solve (fuel : nat) (beta : nat -> fl) (tol atol : Q) (mx : maxit) : outcome := outer fuel beta tol atol mx 0 None.

(** * NewtonRaphson/helpers/stop_criterion.py:9-104 *)
Definition nls_judge_3 (BETA : list fl) : bool :=
  if (1 <? length BETA) && flt (back 2 BETA) (back 1 BETA) then
    if flt (num 1) (back 2 BETA) && flt (fmul (num (1 # 2)) (back 2 BETA)) (fsub (back 1 BETA) (back 2 BETA)) then true
    else if flt (num 10000000) (back 1 BETA) then true
    else if flt (num 10) (fsub (back 1 BETA) (back 2 BETA)) then true
    else if flt (fmul (num 10) (back 2 BETA)) (back 1 BETA) then true
    else false
  else false.
Definition nls_stop (BETA : list fl) (atol : Q) (ITER : nat) (mx : maxit) : verdict :=
  match mx with
  | MStr n => if (n <=? Z.of_nat ITER)%Z then VStop 2 (Z.of_nat ITER) else VGo
  | MInt n =>
      if flt (back 1 BETA) (num atol) then VStop 1 0
      else if (n <=? Z.of_nat ITER)%Z then VStop 2 (Z.of_nat ITER)
      else if nls_judge_3 BETA then VStop 3 (-1)
      else VGo
  end.
(** regular.py:252-254 *)
Definition nls_push (BETA : list fl) (b : fl) : list fl :=
  let BETA := BETA ++ [b] in
  if 10 <? length BETA then [nth 0 BETA None] ++ tail_of 2 BETA else BETA.

(** * NewtonRaphson/regular.py:104-264 *)
Section Newton.
  Variable K : CRing.
  Definition vec := nat -> K.
  Definition vadd (x y : vec) : vec := fun i => radd (x i) (y i).
  Definition vset (x : vec) (i : nat) (v : K) : vec := fun j => if j =? i then v else x j.
  (** customize.py:38-109; a set_no_evaluations is the list of its dofs *)
  Inductive cust := NoEval (i : nat) | Guess (i : nat) (v : K) | NoEvals (l : list nat).
  (** customize.py:45-60 *)
  Definition set_fixed_solution (cs : list cust) (i : nat) (v : K) : list cust := cs ++ [Guess i v; NoEval i].
  Definition no_eval (cs : list cust) : list nat :=
    flat_map (fun c => match c with NoEval i => [i] | Guess _ _ => [] | NoEvals l => l end) cs.
  (** lines 210-218: writes into the array of xi, at ITER = 1 the x0 of the caller *)
  Definition guesses (cs : list cust) (x : vec) : vec :=
    fold_left (fun x c => match c with Guess i v => vset x i v | _ => x end) cs x.
  (** assembling A and f at the vector the intermediate forms hold, customizing the rows of the listed dofs and
      solving (lines 123-207, 221-249) *)
  Variable correction : vec -> list nat -> vec.
  Variable norm : vec -> fl.
  (** one round: the vector distributed to the forms (line 121) is the xi before the initial guesses are written
      (line 215) *)
  Definition newton_dx (cs : list cust) (xi : vec) : vec := correction xi (no_eval cs).
  Definition newton_base (cs : list cust) (ITER : nat) (xi : vec) : vec := if ITER =? 1 then guesses cs xi else xi.

  (** xi1, info, BETA[-1], ITER *)
  Inductive nresult := NDone (x : vec) (info : Z) (beta : fl) (ITER : nat) | NRunning.
  Fixpoint newton (fuel : nat) (cs : list cust) (atol : Q) (mx : maxit) (ITER : nat) (xi : vec) (BETA : list fl) : nresult :=
    match fuel with
    | O => NRunning
    | S fuel' =>
        let ITER := S ITER in
        let dx := newton_dx cs xi in
        let BETA := nls_push BETA (norm dx) in
        let xi1 := vadd (newton_base cs ITER xi) dx in
        match nls_stop BETA atol ITER mx with
        | VStop _ info => NDone xi1 info (back 1 BETA) ITER
        | _ => newton fuel' cs atol mx ITER xi1 BETA
        end
    end.
  Definition newton_raphson (fuel : nat) (cs : list cust) (atol : Q) (mx : maxit) (x0 : vec) : nresult := newton fuel cs atol mx 0 x0 [].
End Newton.
