(** Property theorems C30, C31, C32, C68, C70. *)
From Coq Require Import List Arith ZArith QArith Qcanon Bool Lia.
From Verif Require Import Prelude RingSum KrylovModel KrylovSpec BicProofs ArnoldiProofs AugProofs SchurProofs.
Import ListNotations.
Local Open Scope nat_scope.

(** C30: BiCGSTAB runs the textbook iteration, but with a shadow residual that is overwritten after the first iteration.
    h0 are the contents of the arrays made by np.empty *)
Theorem C30_iterates : forall (K : CRing) div SIZE n A f h0 x0 k i, let At := whole_A K SIZE A in let bt := whole_f K SIZE f in
  xsol K (bic_at K div SIZE n A f h0 x0 k) i = tx K (textbook K div n At bt x0 (overwritten K div n At bt x0) k) i.
Proof. intros K div SIZE n A f h0 x0 k. exact (bic_overwritten K div SIZE n A f h0 x0 k). Qed.
Print Assumptions C30_iterates.
(** the residual whose norm is reported is the true one, *)
Theorem C30_residual : forall (K : CRing) div SIZE n A f h0 x0 k i,
  bic_residual K (bic_at K div SIZE n A f h0 x0 k) i =
    residual K n (whole_A K SIZE A) (whole_f K SIZE f) (xsol K (bic_at K div SIZE n A f h0 x0 k)) i.
Proof. exact bic_true_residual. Qed.
Print Assumptions C30_residual.
(** and so is the one of the recursion of the textbook, whatever the shadow residuals *)
Theorem C30_recursion : forall (K : CRing) div n A b x0 sh k i,
  tr K (textbook K div n A b x0 sh k) i = residual K n A b (tx K (textbook K div n A b x0 sh k)) i.
Proof. exact textbook_residual. Qed.
Print Assumptions C30_recursion.
Definition QR : CRing := mkCRing Qc 0%Qc 1%Qc Qcplus Qcmult Qcminus Qcopp Qcrt.
Definition qc (z : Z) : Qc := Q2Qc (inject_Z z).
(** two cores *)
Definition A30 (r : nat) (i j : nat) : QR :=
  match r, i, j with 0, 0, 0 => qc 2 | 1, 0, 1 => qc 1 | 0, 1, 1 => qc 1 | 1, 1, 1 => qc 2 | 1, 1, 0 => qc (-1) | _, _, _ => qc 0 end.
Definition f30 (r i : nat) : QR := match r, i with 0, 0 => qc 1 | 1, 1 => qc 2 | 1, 0 => qc 1 | _, _ => qc 0 end.
Definition at30 (k : nat) := bic_at QR Qcdiv 2 2 A30 f30 (fun _ _ => qc 7) (fun _ => qc 0) k.
Definition see (x : nat -> QR) : list Q := map (fun i => this (x i)) [0; 1].
Definition text30 (k : nat) := let At := whole_A QR 2 A30 in let bt := whole_f QR 2 f30 in
  textbook QR Qcdiv 2 At bt (fun _ => qc 0) (first_residual QR 2 At bt (fun _ => qc 0)) k.
Example C30_ex : see (xsol QR (at30 1)) = [58 # 85; 78 # 85]%Q /\ see (xsol QR (at30 2)) = [260240 # 473501; 403590 # 473501]%Q
  /\ see (bic_residual QR (at30 2)) = [3276 # 67643; -504 # 67643]%Q /\ see (xsol QR (at30 3)) = [4 # 7; 6 # 7]%Q.
Proof. vm_compute. repeat split. Qed.
(** it is not the BiCGSTAB iteration: with the shadow residual kept, two iterations give the exact solution *)
Example C30_text_ex : see (tx QR (text30 2)) = [4 # 7; 6 # 7]%Q /\ see (tr QR (text30 2)) = [0; 0]%Q.
Proof. vm_compute. split; reflexivity. Qed.
Theorem C30_shadow_refuted :
  ~ (forall (K : CRing) div SIZE n A f h0 x0 k i, (i < n)%nat -> let At := whole_A K SIZE A in let bt := whole_f K SIZE f in
     xsol K (bic_at K div SIZE n A f h0 x0 k) i = tx K (textbook K div n At bt x0 (first_residual K n At bt x0) k) i).
Proof.
  intros H. specialize (H QR Qcdiv 2 2 A30 f30 (fun _ _ => qc 7) (fun _ => qc 0) 2 0 ltac:(lia)). cbv zeta in H.
  apply (f_equal this) in H. vm_compute in H. discriminate.
Qed.
Print Assumptions C30_shadow_refuted.

(** C31: the outer iteration N of LGMRES finds in its dictionaries the updates of the last min(N,k) iterations, newest
    first, and their products; no KeyError *)
Theorem C31_augmentation : forall V (matvec : V -> V) m k (ym : nat -> V) N, exists st st',
  aug_run V matvec m k ym N = Some st /\
  aug_iteration V matvec m k N (ym N) st =
    Some (map (fun a => matvec (ym (N - 1 - a))) (seq 0 (Nat.min N k)), map (fun a => ym (N - 1 - a)) (seq 0 (Nat.min N k)), st').
Proof. exact aug_reads. Qed.
Print Assumptions C31_augmentation.
Example C31_ex : option_map (fun st => aug_iteration nat (fun v => v + 100) 4 2 5 15 st) (aug_run nat (fun v => v + 100) 4 2 (fun i => i + 10) 5) =
  Some (Some ([114; 113], [14; 13], ([(5, 15); (4, 14)], [(4, 114); (3, 113)]))).
Proof. reflexivity. Qed.

(** C32: (u, y) solves the assembled block system if and only if y solves the assembled reduced system and u is what the
    back substitution gives in every element. G1 joins no two local dofs of the first group (it is not assembled),
    and the rows and columns of the second group are numbered alike *)
Theorem C32_schur : forall (K : CRing) ne p q M B C D inv_M g h G1 G2 N,
  (forall e, (e < ne)%nat -> inverse_of K (p e) (M e) (inv_M e)) ->
  (forall e i e' i', (e < ne)%nat -> (i < p e)%nat -> (e' < ne)%nat -> (i' < p e')%nat -> G1 e i = G1 e' i' -> e = e' /\ i = i') ->
  (forall e i, (e < ne)%nat -> (i < q e)%nat -> (G2 e i < N)%nat) ->
  forall u y, solves_blocks K ne p q M B C D g h G1 G2 u y <->
    (forall I, mulv K N (asm_A K ne p q B C D inv_M G2 G2) y I = asm_b K ne p q C inv_M g h G2 I) /\
    (forall e i, (e < ne)%nat -> (i < p e)%nat -> u (G1 e i) = back_x K p q B inv_M g G2 y e i).
Proof. exact schur_ok. Qed.
Print Assumptions C32_schur.
(** two elements sharing one dof of the second group *)
Definition m32 (rows : list (list Z)) : nat -> nat -> ZR := fun i j => nth j (nth i rows []) 0%Z.
Definition M32 (e : nat) := m32 (match e with 0%nat => [[2; 1]; [1; 1]] | _ => [[1; 3]; [0; 1]] end)%Z.
Definition iM32 (e : nat) := m32 (match e with 0%nat => [[1; -1]; [-1; 2]] | _ => [[1; -3]; [0; 1]] end)%Z.
Definition B32 (e : nat) := m32 (match e with 0%nat => [[1; 2]; [0; 1]] | _ => [[1; 0]; [1; 1]] end)%Z.
Definition C32 (e : nat) := m32 (match e with 0%nat => [[1; 0]; [1; 1]] | _ => [[2; 0]; [0; 1]] end)%Z.
Definition D32 (e : nat) := m32 (match e with 0%nat => [[1; 0]; [0; 0]] | _ => [[0; 0]; [1; 2]] end)%Z.
Definition G2_32 (e i : nat) : nat := e + i.
Definition G1_32 (e i : nat) : nat := 2 * e + i.
Definition y32 (i : nat) : ZR := Z.of_nat i.
Definition g32 (e i : nat) : ZR := (Z.of_nat e + 3)%Z.
(** right hand sides that make y32 the solution of the reduced system *)
Definition h32 (e i : nat) : ZR :=
  Z.add (mulv ZR 2 (C32 e) (back_x ZR (fun _ => 2) (fun _ => 2) B32 iM32 g32 G2_32 y32 e) i) (mulv ZR 2 (D32 e) (back_L ZR G2_32 y32 e) i).
Definition u32 (k : nat) : ZR := back_x ZR (fun _ => 2) (fun _ => 2) B32 iM32 g32 G2_32 y32 (k / 2) (k mod 2).
Example C32_ex : solves_blocks ZR 2 (fun _ => 2) (fun _ => 2) M32 B32 C32 D32 g32 h32 G1_32 G2_32 u32 y32.
Proof.
  apply (C32_schur ZR 2 (fun _ => 2) (fun _ => 2) M32 B32 C32 D32 iM32 g32 h32 G1_32 G2_32 3).
  - intros e He i j Hi Hj. destruct e as [|[|e]]; [| |lia]; destruct i as [|[|i]]; try lia; destruct j as [|[|j]]; try lia; split; reflexivity.
  - unfold G1_32. intros. lia.
  - unfold G2_32. intros. lia.
  - split.
    + intros I. destruct I as [|[|[|I]]]; reflexivity.
    + intros e i He Hi. destruct e as [|[|e]]; [| |lia]; destruct i as [|[|i]]; try lia; reflexivity.
Qed.

(** C68: consecutive GMRES cycles with the basis vectors distributed over the cores, *)
Theorem C68_gmres : forall (K : CRing) div SIZE n restart A norm vs Vm0 Vsl Vs0 V, (0 < SIZE)%nat -> vs <> [] ->
  let prod := fun (_ : nat) v r => mulv K n (A r) v in
  let c' := fold_left (fun c v0 => dist K div SIZE n restart prod norm v0 c) vs (mkA K Vm0 Vsl Vs0 (fun _ _ _ => r0)) in
  let st' := fold_left (fun st v0 => serial K div SIZE n restart prod norm v0 (fst st) (snd st)) vs (V, fun _ _ => r0) in
  (forall i q, (i < restart)%nat -> Vmaster K c' i q = fst st' i q) /\
  (forall i j, reduced_H K SIZE c' i j = snd st' i j).
Proof.
  intros K div SIZE n restart A norm vs Vm0 Vsl Vs0 V HS.
  exact (cycles_from_zero K div SIZE n restart HS _ (gmres_ext K n A) norm vs Vm0 Vsl Vs0 V).
Qed.
Print Assumptions C68_gmres.
(** and one LGMRES cycle: the products of the steps j >= m are the cached z *)
Theorem C68_lgmres : forall (K : CRing) div SIZE n restart m A z norm v0 c V H, (0 < SIZE)%nat ->
  let prod := fun j v r => if (j <? m)%nat then mulv K n (A r) v else z j r in
  only_owners K SIZE (Hm K c) -> (forall i j, reduced_H K SIZE c i j = H i j) ->
  let c' := dist K div SIZE n restart prod norm v0 c in
  let st' := serial K div SIZE n restart prod norm v0 V H in
  (forall i, (i < restart)%nat -> forall q, Vmaster K c' i q = fst st' i q) /\
  (forall i j, reduced_H K SIZE c' i j = snd st' i j) /\ only_owners K SIZE (Hm K c').
Proof.
  intros K div SIZE n restart m A z norm v0 c V H HS.
  exact (arnoldi_ok K div SIZE n restart HS _ (lgmres_ext K n m A z) norm v0 c V H).
Qed.
Print Assumptions C68_lgmres.
(** two cores, two basis vectors *)
Definition A68 (r i j : nat) : ZR := match r with 0 => if i =? j then 2%Z else 0%Z | _ => Z.of_nat (i + 2 * j) end.
Definition norm68 (l : list Z) : Z := Z.max 1 (fold_right (fun a b => Z.abs a + b)%Z 0%Z l / 4).
Definition d68 := dist ZR Z.div 2 2 2 (fun _ v r => mulv ZR 2 (A68 r) v) norm68 (fun i => Z.of_nat (i + 1)) (mkA ZR (fun _ _ => 9%Z) (fun _ _ => 8%Z) (fun _ _ _ => 7%Z) (fun _ _ _ => 0%Z)).
Example C68_ex : map (fun r => map (fun i => map (Hm ZR d68 r i) [0; 1]) [0; 1; 2]) [0; 1] =
    [[[28; -44]; [16; 0]; [0; 115]]; [[0; 0]; [0; 71]; [0; 0]]]%Z /\
  map (fun i => map (reduced_H ZR 2 d68 i) [0; 1]) [0; 1; 2] = [[28; -44]; [16; 71]; [0; 115]]%Z.
Proof. vm_compute. split; reflexivity. Qed.

(** C70: the Jacobi preconditioner is the same in all cores and scales the rows of the assembled system *)
Theorem C70_rows : forall (K : CRing) SIZE n A f reciprocal,
  (forall r r' i j, invM K SIZE A reciprocal r i j = invM K SIZE A reciprocal r' i j) /\
  forall i j, (i < n)%nat ->
  whole_A K SIZE (prec_A K SIZE A reciprocal n) i j = rmul (reciprocal (whole_A K SIZE A i i)) (whole_A K SIZE A i j) /\
  whole_f K SIZE (prec_f K SIZE A f reciprocal n) i = rmul (reciprocal (whole_A K SIZE A i i)) (whole_f K SIZE f i).
Proof. exact prec_rows. Qed.
Print Assumptions C70_rows.
(** so that it does not change the solutions *)
Theorem C70_solutions : forall (K : CRing) SIZE n A f reciprocal x,
  (forall i, (i < n)%nat -> rmul (reciprocal (whole_A K SIZE A i i)) (whole_A K SIZE A i i) = r1) ->
  (solves K n (whole_A K SIZE (prec_A K SIZE A reciprocal n)) (whole_f K SIZE (prec_f K SIZE A f reciprocal n)) x <->
   solves K n (whole_A K SIZE A) (whole_f K SIZE f) x).
Proof. exact prec_solves. Qed.
Print Assumptions C70_solutions.
Example C70_ex : map (fun i => see (whole_A QR 2 (prec_A QR 2 A30 Qcinv 2) i)) [0; 1] = [[1; 1 # 2]; [-1 # 3; 1]]%Q /\
  see (whole_f QR 2 (prec_f QR 2 A30 f30 Qcinv 2)) = [1; 2 # 3]%Q /\
  (forall i, (i < 2)%nat -> Qcmult (Qcinv (whole_A QR 2 A30 i i)) (whole_A QR 2 A30 i i) = 1%Qc).
Proof.
  split; [vm_compute; reflexivity|]. split; [vm_compute; reflexivity|]. intros i Hi. rewrite Qcmult_comm. apply Qcmult_inv_r.
  destruct i as [|[|i]]; [intros E; apply (f_equal this) in E; vm_compute in E; discriminate..|lia].
Qed.
