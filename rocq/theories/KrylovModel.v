(** Model of the linear solvers of tools/miLinearAlgebra/solvers: BiCGSTAB/helpers/mpi_v0.py, the Arnoldi loops of
    GMRES/helpers/{mpi_v0,mpi_v1}.py and LGMRES/helpers/mpi_v0.py, the augmentation dictionaries of LGMRES,
    Schur/rank2 with its direct helper, and preconditioners/Jacobi.py.
    A vector is a function of the index, a matrix of the row and column; n is the order of the system. Entries are
    elements of a commutative ring with an arbitrary division function; rounding is not modelled. A distributed object
    gives the part of each core r < SIZE; COMM.Reduce / Allreduce add the parts. *)
From Coq Require Import List Arith Bool.
From Verif Require Import Prelude RingSum.
Import ListNotations.

Section Krylov.
  Variable K : CRing.
  Variable div : K -> K -> K.
  Notation vec := (nat -> K).
  Notation mat := (nat -> nat -> K).

  Definition mulv (n : nat) (A : mat) (x : vec) : vec := fun i => bsum (seq 0 n) (fun j => rmul (A i j) (x j)).
  Definition dot (n : nat) (x y : vec) : K := bsum (seq 0 n) (fun i => rmul (x i) (y i)).
  Definition reduce (SIZE : nat) (p : nat -> vec) : vec := fun i => bsum (seq 0 SIZE) (fun r => p r i).
  (** a x + y and friends, entry by entry as numpy *)
  Definition vplus (x y : vec) : vec := fun i => radd (x i) (y i).
  Definition vminus (x y : vec) : vec := fun i => rsub (x i) (y i).
  Definition vscale (a : K) (x : vec) : vec := fun i => rmul a (x i).

  (** * BiCGSTAB/helpers/mpi_v0.py, the master. Arrays live at addresses of a heap; a name holds an address. The names
      p1, s and x0 have equal contents in all cores after the broadcasts, so that the parts [A @ p1] of the cores
      are those of the master's vector. *)
  Record bstate := mkB {
    heap : nat -> vec; fresh : nat;
    pr0 : nat; phr0 : nat; pp0 : nat; pv0 : nat; pv1 : nat; pt : nat; pp1 : nat; ps : nat;
    rho0 : K; rho1 : K; omega0 : K; omega1 : K; alpha : K;
    xsol : vec }.
  Definition put_array (h : nat -> vec) (a : nat) (v : vec) : nat -> vec := fun b => if b =? a then v else h b.

  (** lines 67-84; the contents of np.empty are those of the heap given. hr0, p1, s, rho1 and omega1 are not bound yet *)
  Definition bic_init (h : nat -> vec) (x : vec) : bstate :=
    let h := put_array (put_array h 1 (fun _ => r0)) 2 (fun _ => r0) in
    mkB h 5 0 0 1 2 3 4 0 0 r1 r1 r1 r1 r1 x.

  Section Bicgstab.
    Variables (SIZE n : nat) (A : nat -> mat) (f : nat -> vec).
    Definition apply_A (x : vec) : vec := reduce SIZE (fun r => mulv n (A r) x).
    (** line 90-95: the residual goes into the array r0 is bound to *)
    Definition bic_head (ITER : nat) (s : bstate) : bstate :=
      let res := reduce SIZE (fun r => vminus (f r) (mulv n (A r) (xsol s))) in
      mkB (put_array (heap s) (pr0 s) res) (fresh s) (pr0 s) (if ITER =? 0 then pr0 s else phr0 s)
        (pp0 s) (pv0 s) (pv1 s) (pt s) (pp1 s) (ps s) (rho0 s) (rho1 s) (omega0 s) (omega1 s) (alpha s) (xsol s).
    (** lines 111-116, ITER already increased *)
    Definition bic_shift (ITER : nat) (s : bstate) : bstate :=
      if 1 <? ITER then
        let a := fresh s in
        mkB (put_array (heap s) a (vminus (heap s (ps s)) (vscale (omega1 s) (heap s (pt s))))) (S a)
          a (phr0 s) (pp1 s) (pv1 s) (pv1 s) (pt s) (pp1 s) (ps s) (rho1 s) (rho1 s) (omega1 s) (omega1 s) (alpha s) (xsol s)
      else s.
    (** lines 118-143 *)
    Definition bic_body (s : bstate) : bstate :=
      let h := heap s in
      let rho1' := dot n (h (phr0 s)) (h (pr0 s)) in
      let beta := rmul (div rho1' (rho0 s)) (div (alpha s) (omega0 s)) in
      let a1 := fresh s in
      let h := put_array h a1 (vplus (h (pr0 s)) (vscale beta (vminus (h (pp0 s)) (vscale (omega0 s) (h (pv0 s)))))) in
      let h := put_array h (pv1 s) (apply_A (h a1)) in
      let alpha' := div rho1' (dot n (h (phr0 s)) (h (pv1 s))) in
      let a2 := S a1 in
      let h := put_array h a2 (vminus (h (pr0 s)) (vscale alpha' (h (pv1 s)))) in
      let h := put_array h (pt s) (apply_A (h a2)) in
      let omega1' := div (dot n (h (pt s)) (h a2)) (dot n (h (pt s)) (h (pt s))) in
      mkB h (S a2) (pr0 s) (phr0 s) (pp0 s) (pv0 s) (pv1 s) (pt s) a1 a2 (rho0 s) rho1' (omega0 s) omega1' alpha'
        (vplus (xsol s) (vplus (vscale alpha' (h a1)) (vscale omega1' (h a2)))).
    (** the state at the stop test (line 105) after k iterations *)
    Fixpoint bic_at (h : nat -> vec) (x : vec) (k : nat) : bstate :=
      match k with
      | O => bic_head 0 (bic_init h x)
      | S k' => bic_head k (bic_body (bic_shift k (bic_at h x k')))
      end.
    (** the array whose norm is reported *)
    Definition bic_residual (s : bstate) : vec := heap s (pr0 s).
  End Bicgstab.

  (** * the Arnoldi loop. [prod j v r]: the part of the product of core r in step j; for GMRES [A @ v], for LGMRES with
      j >= m the cached product of an augmentation vector (LGMRES/helpers/mpi_v0.py:160-186) *)
  Definition mset (H : mat) (i j : nat) (v : K) : mat := fun i' j' => if (i' =? i) && (j' =? j) then v else H i' j'.
  Definition rset (V : nat -> vec) (i : nat) (v : vec) : nat -> vec := fun i' => if i' =? i then v else V i'.
  Section Arnoldi.
    Variables (SIZE n restart : nat).
    Variable prod : nat -> vec -> nat -> vec.
    (** np.sum(v ** 2) ** 0.5 *)
    Variable norm : list K -> K.
    Definition vnorm (v : vec) : K := norm (map v (seq 0 n)).
    Definition normalise (v : vec) (h : K) : vec := fun i => div (v i) h.

    (** GMRES/helpers/mpi_v0.py:121-165, the master: all basis vectors are rows of Vm *)
    Definition serial_column (j : nat) (AVJ : vec) (V : nat -> vec) (H : mat) : mat * vec :=
      fold_left (fun '(H, acc) i => let Hij := dot n AVJ (V i) in (mset H i j Hij, vplus acc (vscale Hij (V i)))) (seq 0 (S j)) (H, fun _ => r0).
    Definition serial_step (st : (nat -> vec) * mat) (j : nat) : (nat -> vec) * mat :=
      let '(V, H) := st in
      let AVJ := reduce SIZE (prod j (V j)) in
      let '(H, acc) := serial_column j AVJ V H in
      let hat := vminus AVJ acc in
      let H := mset H (S j) j (vnorm hat) in
      (if j <? restart - 1 then rset V (S j) (normalise hat (vnorm hat)) else V, H).
    Definition serial (v0 : vec) (V : nat -> vec) (H : mat) : (nat -> vec) * mat :=
      fold_left serial_step (seq 0 restart) (rset V 0 v0, H).

    (** GMRES/helpers/mpi_v1.py:49-53 and LGMRES/helpers/mpi_v0.py:49-52 *)
    Definition local_ind (r : nat) : list nat := filter (fun i => i mod SIZE =? r) (seq 0 restart).
    (** local_ind_dict[i] *)
    Definition local_pos (r i : nat) : nat := match first_index (Nat.eqb i) (local_ind r) with Some p => p | None => 0 end.
    (** all cores: Vm of the master (core 0), Vm of the slaves, Vs of the slaves, Hm *)
    Record acores := mkA { Vmaster : nat -> vec; Vslave : nat -> vec; Vs : nat -> nat -> vec; Hm : nat -> mat }.
    (** for i in local_ind: if i <= j: ... else: break *)
    Fixpoint upto (j : nat) (l : list nat) : list nat := match l with i :: l' => if i <=? j then i :: upto j l' else [] | [] => [] end.
    Definition core_column (j : nat) (AVJ : vec) (row : nat -> vec) (l : list nat) (H : mat) : mat * vec :=
      fold_left (fun '(H, acc) i => let Hij := dot n AVJ (row i) in (mset H i j Hij, vplus acc (vscale Hij (row i)))) (upto j l) (H, fun _ => r0).
    (** mpi_v1.py:139-197; LGMRES 158-235 is the same with its [prod] *)
    Definition dist_step (c : acores) (j : nat) : acores :=
      let cur := fun r => if r =? 0 then Vmaster c j else Vslave c r in
      let Vs' := fun r => if negb (r =? 0) && existsb (Nat.eqb j) (local_ind r) then rset (Vs c r) (local_pos r j) (Vslave c r) else Vs c r in
      let AVJ := reduce SIZE (fun r => prod j (cur r) r) in
      let col := fun r => core_column j AVJ (fun i => if r =? 0 then Vmaster c i else Vs' r (local_pos r i)) (local_ind r) (Hm c r) in
      let SUM := reduce SIZE (fun r => snd (col r)) in
      let hat := vminus AVJ SUM in
      let H' := fun r => if r =? 0 then mset (fst (col 0)) (S j) j (vnorm hat) else fst (col r) in
      let v := normalise hat (vnorm hat) in
      if j <? restart - 1 then mkA (rset (Vmaster c) (S j) v) (fun _ => v) Vs' H'
      else mkA (Vmaster c) (Vslave c) Vs' H'.
    (** lines 132-137: v0 has been broadcast. (Only core 0 owns index 0.) *)
    Definition dist (v0 : vec) (c : acores) : acores :=
      fold_left dist_step (seq 0 restart) (mkA (rset (Vmaster c) 0 v0) (fun _ => v0) (Vs c) (Hm c)).
    (** line 199: the matrix the least squares problem uses *)
    Definition reduced_H (c : acores) : mat := fun i j => bsum (seq 0 SIZE) (fun r => Hm c r i j).
  End Arnoldi.

  (** * LGMRES/helpers/mpi_v0.py:111-112, 119-124, 174-180, 250-258, 286-288: the dictionaries of one core. [A @ v] is the
      part of the product; ym is the update the iteration ends with. None: KeyError. *)
  Section Augment.
    Variable V : Type.
    Variable matvec : V -> V.
    Definition dict := list (nat * V).
    Definition dget (d : dict) (k : nat) : option V :=
      match find (fun p => fst p =? k) d with Some p => Some (snd p) | None => None end.
    Definition dhas (d : dict) (k : nat) : bool := existsb (fun p => fst p =? k) d.
    Definition ddel (d : dict) (k : nat) : option dict := if dhas d k then Some (filter (fun p => negb (fst p =? k)) d) else None.
    Definition dput (d : dict) (k : nat) (v : V) : dict := (k, v) :: filter (fun p => negb (fst p =? k)) d.

    (** lines 119-124: the m and k of the iteration *)
    Definition used_k (ITER _k_ : nat) : nat := if ITER <? _k_ then ITER else _k_.
    Definition used_m (ITER _m_ _k_ : nat) : nat := if ITER <? _k_ then _m_ + _k_ - ITER else _m_.
    (** lines 172-182 for one j >= m: the new cache and Avj *)
    Definition aug_product (ITER _m_ _k_ : nat) (ZZZ AZ : dict) (j : nat) : option (dict * V) :=
      let index := ITER + used_m ITER _m_ _k_ - 1 - j in
      if dhas AZ index then match dget AZ index with Some v => Some (AZ, v) | None => None end
      else
        match (if _k_ <? ITER then ddel AZ (ITER - _k_ - 1) else Some AZ) with
        | None => None
        | Some AZ =>
            match dget ZZZ index with
            | None => None
            | Some z => let AZ := dput AZ index (matvec z) in
                        match dget AZ index with Some v => Some (AZ, v) | None => None end
            end
        end.
    Fixpoint aug_products (ITER _m_ _k_ : nat) (ZZZ AZ : dict) (js : list nat) : option (dict * list V) :=
      match js with
      | [] => Some (AZ, [])
      | j :: js' =>
          match aug_product ITER _m_ _k_ ZZZ AZ j with
          | None => None
          | Some (AZ, v) =>
              match aug_products ITER _m_ _k_ ZZZ AZ js' with
              | None => None
              | Some (AZ, vs) => Some (AZ, v :: vs)
              end
          end
      end.
    Fixpoint dgets (d : dict) (ks : list nat) : option (list V) :=
      match ks with
      | [] => Some []
      | k :: ks' => match dget d k, dgets d ks' with Some v, Some vs => Some (v :: vs) | _, _ => None end
      end.
    (** one outer iteration: the products of the augmented directions and the directions themselves (rows m, m+1, ..
        of Ws), then the update of the dictionaries *)
    Definition aug_iteration (_m_ _k_ ITER : nat) (ym : V) (st : dict * dict) : option (list V * list V * (dict * dict)) :=
      let '(ZZZ, AZ) := st in
      let m := used_m ITER _m_ _k_ in
      let k := used_k ITER _k_ in
      match aug_products ITER _m_ _k_ ZZZ AZ (seq m (_m_ + _k_ - m)) with
      | None => None
      | Some (AZ, products) =>
          match dgets ZZZ (map (fun a => ITER - a - 1) (seq 0 k)) with
          | None => None
          | Some directions =>
              match (if (_k_ <=? ITER) && (0 <? _k_) then ddel ZZZ (ITER - _k_) else Some ZZZ) with
              | None => None
              | Some ZZZ => Some (products, directions, (dput ZZZ ITER ym, AZ))
              end
          end
      end.
    (** the iterations 0 .. N-1 *)
    Fixpoint aug_run (_m_ _k_ : nat) (ym : nat -> V) (N : nat) : option (dict * dict) :=
      match N with
      | O => Some ([], [])
      | S N' => match aug_run _m_ _k_ ym N' with
                | None => None
                | Some st => option_map snd (aug_iteration _m_ _k_ N' (ym N') st)
                end
      end.
  End Augment.

  (** * Schur/rank2/main.py:52-88 and helpers/scipy_sparse_linalg_direct.py:36-67. Elements 0..ne-1 (all cores
      together: the assembly adds over elements and cores); element e has p e unknowns in the first and q e in the
      second block group. The element-wise inverses are given. *)
  Section Schur.
    Variables (ne : nat) (p q : nat -> nat).
    Variables (M B C D inv_M : nat -> mat) (g h : nat -> vec).
    (** gathering vectors of the second group: of the rows and of the columns *)
    Variables (GM_row GM_col : nat -> nat -> nat).
    Definition mmul (n : nat) (X Y : mat) : mat := fun i j => bsum (seq 0 n) (fun k => rmul (X i k) (Y k j)).
    (** lines 38-39; numpy evaluates C @ inv_M @ B from the left *)
    Definition rA (e : nat) : mat := fun i j => rsub (D e i j) (mmul (p e) (mmul (p e) (C e) (inv_M e)) (B e) i j).
    Definition rb (e : nat) : vec := fun i => rsub (h e i) (mulv (p e) (mmul (p e) (C e) (inv_M e)) (g e) i).
    (** lines 41-47: the assembled reduced system *)
    Definition asm_A : mat := fun I J =>
      bsum (seq 0 ne) (fun e => bsum (seq 0 (q e)) (fun i => bsum (seq 0 (q e)) (fun j =>
        if (GM_row e i =? I) && (GM_col e j =? J) then rA e i j else r0))).
    Definition asm_b : vec := fun I =>
      bsum (seq 0 ne) (fun e => bsum (seq 0 (q e)) (fun i => if GM_col e i =? I then rb e i else r0)).
    (** lines 56-67: the local results; [y] is reduce_results.V *)
    Definition back_L (y : vec) (e : nat) : vec := fun i => y (GM_col e i).
    Definition back_x (y : vec) (e : nat) : vec :=
      mulv (p e) (inv_M e) (vminus (g e) (mulv (q e) (B e) (back_L y e))).
  End Schur.

  (** * preconditioners/Jacobi.py:16-37 and GMRES/helpers/mpi_v0.py:52-62 *)
  Section Jacobi.
    Variables (SIZE : nat) (A : nat -> mat) (f : nat -> vec).
    Variable reciprocal : K -> K.
    Definition jac_diag : vec := fun i => reciprocal (bsum (seq 0 SIZE) (fun r => A r i i)).
    (** the same DIAG is broadcast to all cores *)
    Definition invM (r : nat) : mat := fun i j => if i =? j then jac_diag i else r0.
    Definition prec_A (n r : nat) : mat := mmul n (invM r) (A r).
    Definition prec_f (n r : nat) : vec := mulv n (invM r) (f r).
  End Jacobi.
End Krylov.
