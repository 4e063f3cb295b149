(** Properties of multi-dimensional matrices (C105), nonlinear systems (C106) and their Newton solver (C107). *)
From Coq Require Import List Arith ZArith QArith Bool Permutation.
From Verif Require Import Prelude RingSum StopModel StopSpec MdmModel MdmSpec MdmProofs2 MdmProofs3 MdmProofs4 MdmProofs5 MdmProofs6 MdmPropLemmas MdmExample.
Import ListNotations.
Local Open Scope nat_scope.

(** C105: eliminating an axis with a cochain is putting the cochain into that slot of the multilinear form *)
Theorem C105_eliminate : forall K nb (m : mdm K) k c,
  match eliminate K nb m k c with
  | None => length (cor K m) <= k
  | Some m' => k < length (cor K m) /\ cor K m' = drop_at k (cor K m) /\
      forall e xs, length xs = length (cor K m) - 1 ->
        mval K (map nb (cor K m')) (arr K m' e) xs = mval K (map nb (cor K m)) (arr K m e) (put_at k (c e) xs)
  end.
Proof. exact eliminate_ok. Qed.
Print Assumptions C105_eliminate.
Example C105_eliminate_ex : option_map (fun m => (cor ZR m, map (arr ZR m 1) [[0; 0]; [2; 1]])) (eliminate ZR nb0 m0 1 y10)
  = Some ([1; 2], [10; 78]%Z).
Proof. exact eliminate_ex. Qed.

(** all the forms known, in whatever order of the pairs: the sum over all elements of all cores *)
Theorem C105_evaluate : forall K nb cores (m : mdm K) pairs, NoDup (cor K m) -> NoDup (map fst pairs) ->
  (forall f, In f (cor K m) -> In f (map fst pairs)) ->
  evaluate K nb cores m pairs = Some (EReal K (bsum cores (fun es => bsum es (fun e => mform K nb m e (given K pairs e))))).
Proof. exact evaluate_all. Qed.
Print Assumptions C105_evaluate.
Example C105_evaluate_ex : evaluate ZR nb0 [[0; 1]; [2]] m0 [(2, x2); (10, y10); (7, x1); (1, x1)] = Some (EReal ZR 1314%Z).
Proof. exact evaluate_all_ex. Qed.

(** a form given twice: the last vector counts *)
Theorem C105_evaluate_twice : forall K nb cores (m : mdm K) ps1 ps2 f c c', ~ In f (map fst ps2) ->
  evaluate K nb cores m (ps1 ++ (f, c) :: ps2 ++ [(f, c')]) = evaluate K nb cores m (ps1 ++ (f, c') :: ps2).
Proof. exact evaluate_twice. Qed.
Print Assumptions C105_evaluate_twice.
Example C105_evaluate_twice_ex : evaluate ZR nb0 [[0; 1]; [2]] m0 [(2, x2); (10, x1); (1, x1); (10, y10)] = Some (EReal ZR 1314%Z)
  /\ evaluate ZR nb0 [[0; 1]; [2]] m0 [(2, x2); (10, x1); (1, x1)] <> Some (EReal ZR 1314%Z).
Proof. exact evaluate_twice_ex. Qed.

(** all but one known: entry i is the value with the i-th unit vector in its place *)
Theorem C105_evaluate_vector : forall K nb cores (m : mdm K) pairs f, NoDup (cor K m) -> NoDup (map fst pairs) ->
  In f (cor K m) -> ~ In f (map fst pairs) -> (forall g, In g (cor K m) -> g <> f -> In g (map fst pairs)) ->
  exists v, evaluate K nb cores m pairs = Some (EVec K v) /\
    forall e i, v e i = mform K nb m e (upd K (given K pairs e) f (unit K i)).
Proof. exact evaluate_one. Qed.
Print Assumptions C105_evaluate_vector.
Example C105_evaluate_vector_ex : vec_of (evaluate ZR nb0 [] m0 [(2, x2); (1, x1)]) = Some [98; 104]%Z.
Proof. exact evaluate_one_ex. Qed.

(** two or more left: an exception *)
Theorem C105_evaluate_more : forall K nb cores (m : mdm K) pairs, NoDup (cor K m) -> NoDup (map fst pairs) ->
  2 <= length (filter (fun f => negb (mem f (map fst pairs))) (cor K m)) -> evaluate K nb cores m pairs = None.
Proof. exact evaluate_more. Qed.
Print Assumptions C105_evaluate_more.
Example C105_evaluate_more_ex : 2 <= length (filter (fun f => negb (mem f [2])) (cor ZR m0)) /\ evaluate ZR nb0 [] m0 [(2, x2)] = None.
Proof. exact (conj (le_n 2) eq_refl). Qed.

(** knowing all the forms is not enough when a form occurs twice *)
Theorem C105_repeated_refuted :
  ~ (forall (K : CRing) nb cores (m : mdm K) pairs, NoDup (map fst pairs) -> (forall f, In f (cor K m) -> In f (map fst pairs)) ->
       exists x, evaluate K nb cores m pairs = Some (EReal K x)).
Proof. exact repeated_refuted. Qed.
Print Assumptions C105_repeated_refuted.

(** reduce_to_vector with the forms' own cochains; also for repeated forms: the first axis of v is kept *)
Theorem C105_reduce : forall K nb (m : mdm K) v c,
  match reduce_to_vector K nb m v c with
  | None => length (cor K m) < 2 \/ ~ In v (cor K m)
  | Some w => 2 <= length (cor K m) /\ exists r, index_of v (cor K m) = Some r /\
      forall e i, w e i = mval K (map nb (cor K m)) (arr K m e)
        (map (fun k => if k =? r then unit K i else c (nth k (cor K m) 0) e) (seq 0 (length (cor K m))))
  end.
Proof. exact reduce_ok. Qed.
Print Assumptions C105_reduce.
Example C105_reduce_ex : option_map (fun v : local ZR => map (v 1) [0; 1; 2])
  (reduce_to_vector ZR nb0 m0 1 (fun f => match f with 2 => x2 | _ => y10 end)) = Some [38; 118; 198]%Z.
Proof. exact reduce_ex. Qed.

(** the derivative block: rows of the test variable, columns of the unknown, whatever the order of the axes *)
Theorem C105_derivative : forall K nb (m : mdm K) tv uv w sw known,
  Permutation (cor K m) [tv; uv; w] -> NoDup [tv; uv; w] -> NoDup (map fst known) -> In (w, sw) known ->
  ~ In tv (map fst known) -> ~ In uv (map fst known) ->
  exists M, derivative_contribution_to K nb m tv uv known = Some (Some (tv, uv, M)) /\
    forall e r c, r < nb tv -> c < nb uv ->
      M e r c = mform K nb m e (upd K (upd K (given K known e) tv (unit K r)) uv (unit K c)).
Proof. exact derivative_perm. Qed.
Print Assumptions C105_derivative.
Example C105_derivative_ex :
  match derivative_contribution_to ZR nb0 m0 10 1 [(2, x2)] with
  | Some (Some (f, g, M)) => Some (f, g, map (fun r => map (M 1 r) [0; 1; 2]) [0; 1]) | _ => None end
  = Some (10, 1, [[6; 22; 38]; [8; 24; 40]]%Z).
Proof. exact derivative_ex. Qed.

(** C106: evaluate_f is the residual A x + nonlinear(x) - b (or its opposite) *)
Theorem C106_residual : forall K nb (s : nls K) xs neg, usable K s -> length xs = length (unknowns K s) ->
  exists f, evaluate_f K nb s xs neg = Some f /\ length f = length (tests K s) /\
    forall i e r, i < length (tests K s) -> nth i f (fun _ _ => r0) e r =
      (if neg then ropp (residual K nb s xs i e r) else residual K nb s xs i e r).
Proof. exact evaluate_f_ok. Qed.
Print Assumptions C106_residual.
Example C106_residual_ex : usable ZR s0 /\
  option_map (map (fun v : local ZR => map (v 1) [0; 1])) (evaluate_f ZR nb0 s0 [x1; x2] true) = Some [[-12; -12]; [-4; -4]]%Z.
Proof. exact (conj (proj1 s0_usable) s0_residual). Qed.

(** the assembled linear system at x: unit rows for the fixed dofs, minus the residual on the right, and the matrix J
    is the Jacobian of F: F(x + t h) = F(x) + t J h + t^2 N(h) for every h and t *)
Theorem C106_jacobian : forall K nb els gt gu (s : nls K) fixed x n, usable K s -> trilinear K s -> numbering K nb els gu s n ->
  exists A b J, newton_system K nb els gt gu s fixed x = Some (A, b) /\
    (forall R C, In R fixed -> A R C = if R =? C then r1 else r0) /\ (forall R, In R fixed -> b R = r0) /\
    (forall R C, ~ In R fixed -> A R C = J R C) /\
    (forall R, ~ In R fixed -> b R = ropp (F K nb els gt gu s x R)) /\
    (forall h t R, F K nb els gt gu s (along K x h t) R =
       radd (radd (F K nb els gt gu s x R) (rmul t (mat_vec K n J h R))) (rmul (rmul t t) (N K nb els gt gu s h R))).
Proof. exact newton_system_ok. Qed.
Print Assumptions C106_jacobian.
Example C106_jacobian_ex : numbering ZR nb0 [0; 1] gu0 s0' 9 /\ entries (newton_system ZR nb0 [0; 1] gt0 gu0 s0' [1] (fun i => Z.of_nat i)) = Some
  ([[11; 74; 137; 0; 0; 28; 33; 0; 0]; [0; 1; 0; 0; 0; 0; 0; 0; 0]; [0; 0; 48; 133; 218; 0; 0; 73; 102];
    [0; 0; 0; 0; 0; 1; 2; 0; 0]; [0; 0; 0; 0; 0; 0; 0; 1; 2]]%Z, [-347; 0; -1363; -17; -23]%Z).
Proof. exact (conj s0_numbering s0_system). Qed.

(** a right hand side entry 0, which the constructor accepts, makes every evaluation fail *)
Theorem C106_zero_rhs : forall K nb (s : nls K) xs neg i, i < length (tests K s) -> nth_error (bs K s) i = Some (BZero K) ->
  evaluate_f K nb s xs neg = None.
Proof. exact evaluate_f_zero. Qed.
Print Assumptions C106_zero_rhs.
Example C106_zero_rhs_ex : nls_ok ZR s1 = true /\ nth_error (bs ZR s1) 0 = Some (BZero ZR) /\ evaluate_f ZR nb0 s1 [x2] true = None.
Proof. exact (conj eq_refl (conj eq_refl eq_refl)). Qed.
Theorem C106_zero_rhs_refuted :
  ~ (forall (K : CRing) nb (s : nls K) xs, nls_ok K s = true -> NoDup (unknowns K s) -> length (bs K s) = length (tests K s) ->
       length xs = length (unknowns K s) ->
       (forall i, i < length (tests K s) -> exists j M, j < length (unknowns K s) /\ block K s i j = Some M) ->
       exists f, evaluate_f K nb s xs true = Some f).
Proof. exact zero_rhs_refuted. Qed.
Print Assumptions C106_zero_rhs_refuted.

(** C107: the residual NewtonRaphson leaves when the linear systems are solved exactly is the quadratic part of the
    last correction *)
Theorem C107_residual : forall K nb els gt gu (s : nls K) n corr norm, usable K s -> trilinear K s -> numbering K nb els gu s n ->
  exact_solver K nb els gt gu s n corr -> forall cs x0 atol mx fuel x info beta i, (1 <= mx)%Z -> Z.to_nat mx <= fuel ->
  newton_raphson K corr norm fuel cs atol (MInt mx) x0 = NDone K x info beta i ->
  2 <= i \/ (forall j, guesses K cs x0 j = x0 j) ->
  forall R, R < n -> ~ In R (no_eval K cs) ->
    F K nb els gt gu s x R = N K nb els gt gu s (step_of K corr (no_eval K cs) x0 (guesses K cs x0) (i - 1)) R.
Proof. exact newton_residual. Qed.
Print Assumptions C107_residual.
Theorem C107_converged : forall K nb els gt gu (s : nls K) n corr norm, usable K s -> trilinear K s -> numbering K nb els gu s n ->
  exact_solver K nb els gt gu s n corr -> forall cs x0 atol mx fuel x info beta i, (1 <= mx)%Z -> Z.to_nat mx <= fuel ->
  newton_raphson K corr norm fuel cs atol (MInt mx) x0 = NDone K x info beta i ->
  2 <= i \/ (forall j, guesses K cs x0 j = x0 j) ->
  (forall j, step_of K corr (no_eval K cs) x0 (guesses K cs x0) (i - 1) j = r0) ->
  forall R, R < n -> ~ In R (no_eval K cs) -> F K nb els gt gu s x R = r0.
Proof. exact newton_converged. Qed.
Print Assumptions C107_converged.
(** a linear system is solved *)
Theorem C107_linear : forall K nb els gt gu (s : nls K) n corr norm, usable K s -> trilinear K s -> numbering K nb els gu s n ->
  exact_solver K nb els gt gu s n corr -> forall cs x0 atol mx fuel x info beta i, (1 <= mx)%Z -> Z.to_nat mx <= fuel ->
  newton_raphson K corr norm fuel cs atol (MInt mx) x0 = NDone K x info beta i ->
  2 <= i \/ (forall j, guesses K cs x0 j = x0 j) -> (forall k, term_row K s k = []) ->
  forall R, R < n -> ~ In R (no_eval K cs) -> F K nb els gt gu s x R = r0.
Proof. exact newton_linear. Qed.
Print Assumptions C107_linear.
(** the fixed dofs have the prescribed values *)
Theorem C107_fixed : forall K nb els gt gu (s : nls K) n corr norm, usable K s -> trilinear K s -> numbering K nb els gu s n ->
  exact_solver K nb els gt gu s n corr -> forall cs x0 atol mx fuel x info beta i, (1 <= mx)%Z -> Z.to_nat mx <= fuel ->
  newton_raphson K corr norm fuel cs atol (MInt mx) x0 = NDone K x info beta i ->
  forall R, R < n -> In R (no_eval K cs) -> x R = prescribed K cs R (x0 R).
Proof. exact newton_fixed. Qed.
Print Assumptions C107_fixed.
Example C107_ex : (usable ZR s2 /\ trilinear ZR s2) /\ numbering ZR nb2 [0] g2 s2 2 /\ exact_solver ZR nb2 [0] g2 g2 s2 2 corr2 /\
  result2 (newton_raphson ZR corr2 norm2 5 [NoEval ZR 0] (1 # 2) (MInt 5) (fun i => match i with 0 => 7%Z | _ => 3%Z end))
  = Some ([7; 7]%Z, 0%Z, Some 0%Q, 2).
Proof. exact (conj s2_usable (conj s2_numbering (conj s2_exact s2_run))). Qed.
(** a prescribed value makes the first iteration converge, info 0 and correction 0, at a vector that is no solution *)
Theorem C107_prescribed_refuted :
  ~ (forall (K : CRing) nb els gt gu (s : nls K) n corr norm cs x0 atol mx fuel x info beta i,
       usable K s -> trilinear K s -> numbering K nb els gu s n -> exact_solver K nb els gt gu s n corr ->
       (1 <= mx)%Z -> Z.to_nat mx <= fuel ->
       newton_raphson K corr norm fuel cs atol (MInt mx) x0 = NDone K x info beta i -> info = 0%Z ->
       (forall j, step_of K corr (no_eval K cs) x0 (guesses K cs x0) (i - 1) j = r0) ->
       forall R, R < n -> ~ In R (no_eval K cs) -> F K nb els gt gu s x R = r0).
Proof. exact fixed_solution_refuted. Qed.
Print Assumptions C107_prescribed_refuted.
