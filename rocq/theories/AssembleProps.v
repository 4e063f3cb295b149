(** Properties C07-C09: local assemblers and distributor. *)
From Coq Require Import List Arith ZArith Lia Bool.
From Verif Require Import Prelude RingSum AssembleModel AssembleSpec AssembleProofs.
Import ListNotations.

(** C07: the constructor accepts exactly the gatherings numbering 0..n-1 *)
Theorem C07_gathering_accepted_iff : forall rows n,
  gathering_checker rows = Some n <-> numbers_0_to rows n.
Proof. exact checker_iff. Qed.
Print Assumptions C07_gathering_accepted_iff.

Theorem C07_gathering_rejected : forall Key keqb (K : CRing) (G : list (Key * list Z)) m D,
  (forall n, ~ numbers_0_to (map snd G) n) ->
  VectorAssembler Key keqb K G m D = None /\ forall v, VectorDistributor Key K G v = None.
Proof. exact vector_reject. Qed.
Print Assumptions C07_gathering_rejected.

(** 'replace': every dof holds the last value written to it in dictionary order *)
Theorem C07_replace_last_value : forall Key keqb (K : CRing) (G : list (Key * list Z)) D n,
  numbers_0_to (map snd G) n -> data_for keqb G D ->
  exists out, VectorAssembler Key keqb K G Replace D = Some out /\
    length out = Z.to_nat n /\
    forall d, d < Z.to_nat n ->
      exists ws1 x ws2, writes keqb G D = ws1 ++ (Z.of_nat d, x) :: ws2 /\
        ~ In (Z.of_nat d) (map fst ws2) /\ nth_error out d = Some x.
Proof. exact vector_replace. Qed.
Print Assumptions C07_replace_last_value.

(** 'add': every dof holds the sum of the values gathered to it *)
Theorem C07_add_sum : forall Key keqb (K : CRing) (G : list (Key * list Z)) D n,
  numbers_0_to (map snd G) n -> data_for keqb G D ->
  (forall k g, In (k, g) G -> NoDup g) ->
  exists out, VectorAssembler Key keqb K G Add D = Some out /\ length out = Z.to_nat n /\
    forall d, d < Z.to_nat n -> nth_error out d =
      Some (bsum G (fun kg => bsum (combine (snd kg) (data_of keqb D (fst kg)))
                                (fun p => if (fst p =? Z.of_nat d)%Z then snd p else r0))).
Proof. exact vector_add. Qed.
Print Assumptions C07_add_sum.

Example C07_ex_add :
  VectorAssembler nat Nat.eqb ZR [(7, [0; 1; 2]%Z); (3, [2; 1; 3]%Z)] Add
    [(3, [10; 20; 30]%Z); (7, [1; 2; 3]%Z)] = Some [1; 22; 13; 30]%Z.
Proof. reflexivity. Qed.
Example C07_ex_replace :
  VectorAssembler nat Nat.eqb ZR [(7, [0; 1; 2]%Z); (3, [2; 1; 3]%Z)] Replace
    [(3, [10; 20; 30]%Z); (7, [1; 2; 3]%Z)] = Some [1; 20; 10; 30]%Z.
Proof. reflexivity. Qed.
(** without the no-repetition hypothesis 'add' loses contributions (numpy semantics of +=) *)
Example C07_ex_repetition :
  VectorAssembler nat Nat.eqb ZR [(0, [0; 0]%Z)] Add [(0, [1; 2]%Z)] = Some [2]%Z.
Proof. reflexivity. Qed.

(** C08 *)
Theorem C08_assemble_distribute : forall Key keqb (K : CRing),
  (forall a b : Key, keqb a b = true <-> a = b) ->
  forall (G : list (Key * list Z)) (v : list K) n,
  NoDup (map fst G) -> numbers_0_to (map snd G) n -> length v = Z.to_nat n ->
  exists D, VectorDistributor Key K G v = Some D /\ VectorAssembler Key keqb K G Replace D = Some v.
Proof. exact assemble_distribute_replace. Qed.
Print Assumptions C08_assemble_distribute.

Theorem C08_add_distribute : forall Key keqb (K : CRing),
  (forall a b : Key, keqb a b = true <-> a = b) ->
  forall (G : list (Key * list Z)) (v : list K) n,
  NoDup (map fst G) -> numbers_0_to (map snd G) n -> length v = Z.to_nat n ->
  (forall k g, In (k, g) G -> NoDup g) ->
  exists D out, VectorDistributor Key K G v = Some D /\ VectorAssembler Key keqb K G Add D = Some out /\
    length out = length v /\
    forall d x, nth_error v d = Some x ->
      nth_error out d = Some (nmul (count_occ Z.eq_dec (concat (map snd G)) (Z.of_nat d)) x).
Proof. exact assemble_distribute_add. Qed.
Print Assumptions C08_add_distribute.

Example C08_ex : numbers_0_to (map snd [(7, [0; 1; 2]%Z); (3, [2; 1; 3]%Z)]) 4 /\
  VectorDistributor nat ZR [(7, [0; 1; 2]%Z); (3, [2; 1; 3]%Z)] [5; 6; 7; 8]%Z =
    Some [(7, [5; 6; 7]%Z); (3, [7; 6; 8]%Z)].
Proof. split; [apply checker_iff; reflexivity|reflexivity]. Qed.

(** C09: array and csr outputs represent the sum of the scattered blocks *)
Theorem C09_array_and_csr : forall Key keqb (K : CRing) (is0 : K -> bool),
  (forall x, is0 x = true -> x = r0) ->
  forall (G0 G1 : list (Key * list Z)) D n0 n1 f,
  numbers_0_to (map snd G0) n0 -> numbers_0_to (map (fun kg => data_of keqb G1 (fst kg)) G0) n1 ->
  blocks_for keqb G0 G1 D -> (forall k g0, In (k, g0) G0 -> NoDup (data_of keqb G1 k)) ->
  f = FArray \/ f = FCsr ->
  exists M, MatrixAssembler Key keqb K is0 G0 G1 Add f D = Some M /\
    shape M = (Z.to_nat n0, Z.to_nat n1) /\
    forall r c, r < Z.to_nat n0 -> entry M r c =
      bsum G0 (fun kg => mcontrib (snd kg) (data_of keqb G1 (fst kg)) (data_of keqb D (fst kg))
                           (Z.of_nat r) (Z.of_nat c)).
Proof. exact matrix_formats. Qed.
Print Assumptions C09_array_and_csr.

(** the csc output is the transpose of what was assembled *)
Theorem C09_csc_is_transposed : forall Key keqb (K : CRing) (is0 : K -> bool),
  (forall x, is0 x = true -> x = r0) ->
  forall (G0 G1 : list (Key * list Z)) D n0 n1,
  numbers_0_to (map snd G0) n0 -> numbers_0_to (map (fun kg => data_of keqb G1 (fst kg)) G0) n1 ->
  blocks_for keqb G0 G1 D -> (forall k g0, In (k, g0) G0 -> NoDup (data_of keqb G1 k)) ->
  exists M, MatrixAssembler Key keqb K is0 G0 G1 Add FCsc D = Some M /\
    shape M = (Z.to_nat n1, Z.to_nat n0) /\
    forall r c, r < Z.to_nat n0 -> entry M c r =
      bsum G0 (fun kg => mcontrib (snd kg) (data_of keqb G1 (fst kg)) (data_of keqb D (fst kg))
                           (Z.of_nat r) (Z.of_nat c)).
Proof. exact matrix_csc. Qed.
Print Assumptions C09_csc_is_transposed.

Theorem C09_every_format_refuted :
  exists (G0 G1 : list (nat * list Z)) (D : list (nat * list (list ZR))) Ma Mc,
    MatrixAssembler nat Nat.eqb ZR (Z.eqb 0) G0 G1 Add FArray D = Some Ma /\
    MatrixAssembler nat Nat.eqb ZR (Z.eqb 0) G0 G1 Add FCsc D = Some Mc /\
    shape Ma = shape Mc /\ entry Ma 0 1 <> entry Mc 0 1.
Proof. exact csc_transposed_witness. Qed.
Print Assumptions C09_every_format_refuted.

Example C09_ex :
  exists M, MatrixAssembler nat Nat.eqb ZR (Z.eqb 0) [(0, [0; 1]%Z); (1, [1; 2]%Z)] [(0, [0]%Z); (1, [1]%Z)]
    Add FCsr [(0, [[1]; [2]]%Z); (1, [[3]; [4]]%Z)] = Some M /\
  map (fun i => map (entry M i) [0; 1]) [0; 1; 2] = [[1; 0]; [2; 3]; [0; 4]]%Z.
Proof. eexists. split; reflexivity. Qed.
