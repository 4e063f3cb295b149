(* Algebraic dual forms of 3D structured meshes: objects/CSCG/_3d/ADF/standard/
   base/{main,coboundary}.py, cochain/{main,local}.py, ADF/trace/base/{main,
   coboundary}.py, cochain/{main,local}.py and the caches of objects/CSCG/base/
   ADF/base/main.py.  A dual form has no cochain of its own: it reads and writes
   the cochain of its prime form through the mass matrix.  Over the reals, with
   sparse matrices dense; M.inv is an argument.  One core.  Exceptions and
   failed assertions are None. *)
From Coq Require Import Reals List Arith ZArith.
From Verif Require Import Prelude AssembleModel SpaceModel TfiModel CtModel DiscModel ReconModel TrfModel.
Import ListNotations.
Open Scope R_scope.

Definition matrix := list (list R).
(* M @ c; scipy raises for a wrong length *)
Definition matvec (M : matrix) (c : list R) : option (list R) :=
  if forallb (fun row => (length row =? length c)%nat) M then Some (map (fun row => lsum (map2 Rmult row c)) M) else None.

(* ---------- cochains ---------- *)
(* local cochains: a dict by element *)
Definition ldict := list (nat * list R).
Section Cochain.
  (* mesh.elements, prime.num.basis, mass_matrix and inverse_mass_matrix *)
  Context (els : list nat) (nbasis : nat) (M iM : nat -> matrix).
  (* the cochain of the prime: _local_ *)
  Definition pstate := option ldict.
  (* base/forms/standard/cochain/main.py 250-268 and base/forms/trace/cochain/
     main.py 232-249; the flag whether.full is in TewModel *)
  Definition prime_set (l : ldict) : option pstate :=
    if forallb (fun kv => (length (snd kv) =? nbasis)%nat) l then Some (Some l) else None.
  (* cochain/local.py 13-15: self._MM_[i] @ self._PC_.local[i], at every reading *)
  Definition dual_get (st : pstate) (i : nat) : option (list R) :=
    match st with
    | Some d => match lookup Nat.eqb i d with Some c => matvec (M i) c | None => None end
    | None => None
    end.
  (* cochain/local.py 17-28: in, iter, len *)
  Definition dual_keys (st : pstate) : option (list nat) := option_map (map fst) st.
  (* cochain/main.py 38-47: the setter of local *)
  Definition dual_set (l : ldict) : option pstate :=
    if (length l =? length els)%nat then
      match all_some (map (fun i => match lookup Nat.eqb i l with Some c => option_map (pair i) (matvec (iM i) c) | None => None end) els) with
      | Some p => prime_set p
      | None => None
      end
    else None.
  (* cochain/main.py 119-126 (standard), 104-111 (trace): the setter of globe
     for a LocallyFullVector; gm is numbering.gathering of the prime *)
  Definition pick (v : list R) (idx : list nat) : option (list R) := all_some (map (nth_error v) idx).
  Definition dual_set_full (gm : list (nat * list nat)) (v : list R) : option pstate :=
    match all_some (map (fun e => option_map (pair (fst e)) (pick v (snd e))) gm) with
    | Some l => dual_set l
    | None => None
    end.
End Cochain.
(* the setter of globe of a dual trace form (ADF/trace/base/cochain/main.py
   53-114) by the class of the vector.  For a DistributedVector of the right
   shape it reads globe.IS_master_dominating, which does not exist *)
Inductive gvector := Distributed (shape : nat) | LocallyFull (v : list R) | Other.
Definition trace_set_globe els nbasis iM gm (g : gvector) : option pstate :=
  match g with
  | LocallyFull v => dual_set_full els nbasis iM gm v
  | Distributed _ | Other => None
  end.

(* ---------- coboundary ---------- *)
(* the transpose of an integer matrix with n rows and m columns *)
Definition dense_T (n m : nat) (E : nat -> nat -> Z) : matrix := map (fun c => map (fun r => IZR (E r c)) (seq 0 n)) (seq 0 m).
Definition negative (A : matrix) : matrix := map (map Ropp) A.
(* coboundary.py 99-119: the incidence matrix; 32-67: E and T for a dual k-form
   with a dual trace j-form *)
Definition dual_E (k : nat) (p : list nat) : option matrix :=
  match k with
  | 3%nat => option_map (fun E => negative (dense_T (nb (shapes3 p)) (nb (shapes2 p)) E)) (E32 p)
  | 2%nat => option_map (dense_T (nb (shapes2 p)) (nb (shapes1 p))) (E21 p)
  | 1%nat => option_map (fun E => negative (dense_T (nb (shapes1 p)) (nb (shapes0 p)) E)) (E10 p)
  | _ => None
  end.
(* ADF/trace/base/coboundary.py 14-30 *)
Definition dual_T (k j : nat) (p : list nat) : option matrix :=
  match k, j with
  | 3%nat, 2%nat => option_map (dense_T (ntrace on2 p) (nb (shapes2 p))) (trace2 outward p)
  | 2%nat, 1%nat => option_map (fun T => negative (dense_T (ntrace on1 p) (nb (shapes1 p)) T)) (trace1 outward p)
  | 1%nat, 0%nat => option_map (dense_T (ntrace on0 p) (nb (shapes0 p))) (trace0 outward p)
  | _, _ => None
  end.
(* 91-93: E[i] @ DFC[i] + T[i] @ DTC[i] *)
Definition dual_step (E T : matrix) (d t : list R) : option (list R) :=
  match matvec E d, matvec T t with
  | Some a, Some b => if (length a =? length b)%nat then Some (map2 Rplus a b) else None
  | _, _ => None
  end.
(* __call__ 17-97: the cochain of the dual (k-1)-form given to its setter *)
Definition dual_coboundary (els : list nat) (p : list nat) (k j : nat) (DFC DTC : nat -> option (list R)) : option ldict :=
  match dual_E k p, dual_T k j p with
  | Some E, Some T =>
      all_some (map (fun i => match DFC i, DTC i with
                              | Some d, Some t => option_map (pair i) (dual_step E T d t)
                              | _, _ => None
                              end) els)
  | _, _ => None
  end.

(* ---------- mass matrices of dual trace forms (ADF/trace/base/main.py 51-100) ---------- *)
(* spspa.bmat of square matrices on the diagonal *)
Fixpoint bdiag (Ms : list matrix) : matrix :=
  match Ms with
  | [] => []
  | A :: Ms' => let B := bdiag Ms' in
      map (fun row => row ++ repeat 0 (length B)) A ++ map (fun row => repeat 0 (length A) ++ row) B
  end.
(* element.type_wrt_metric.mark: a str or an int *)
Inductive mark := MStr (s : nat) | MInt (n : nat).
Section MEW.
  (* trace.elements.map of the core in order; the marks; mass_TEW *)
  Context (MAP : list (nat * list nat)) (mk : nat -> mark) (TEW : nat -> option matrix).
  Definition mew_state := (list (nat * matrix) * list (nat * matrix))%type.
  Definition mew_new (ts : list nat) : option matrix := option_map bdiag (all_some (map TEW ts)).
  (* 69-93 *)
  Definition mew_step (st : option mew_state) (e : nat * list nat) : option mew_state :=
    match st with
    | None => None
    | Some (cache, out) =>
        match mk (fst e) with
        | MStr s => match lookup Nat.eqb s cache with
                    | Some A => Some (cache, out ++ [(fst e, A)])
                    | None => match mew_new (snd e) with Some A => Some ((s, A) :: cache, out ++ [(fst e, A)]) | None => None end
                    end
        | MInt _ => match mew_new (snd e) with Some A => Some (cache, out ++ [(fst e, A)]) | None => None end
        end
    end.
  Definition mew_mass : option (list (nat * matrix)) := option_map snd (fold_left mew_step MAP (Some ([], []))).
End MEW.
