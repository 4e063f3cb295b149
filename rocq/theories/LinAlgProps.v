(** Property theorems C24-C28. *)
From Coq Require Import List Arith ZArith Bool Lia Sorting.Sorted.
From Verif Require Import Prelude RingSum AssembleModel EwcModel AsmModel LinAlgModel LinAlgSpec SplitProofs LinAlgProofs.
Import ListNotations.

(** C24: the pieces are consecutive, restore the matrix and, their last row apart, have fewer entries than the factor *)
Theorem C24_split_partition : forall (K : CRing) (lines : list (list (nat * K))) factor, 0 < factor -> lines <> [] ->
  exists ST SL, split_A (indptr K lines) factor (length lines) = Some (ST, SL) /\
    length SL = S ST /\ hd 1 SL = 0 /\ last SL 0 = length lines /\ StronglySorted lt SL /\
    concat (map (fun t => slice (nth t SL 0) (nth (S t) SL 0) lines) (seq 0 ST)) = lines /\
    forall t, t < ST -> length (concat (slice (nth t SL 0) (nth (S t) SL 0 - 1) lines)) < factor.
Proof. exact (fun K lines f => split_ok lines f). Qed.
Print Assumptions C24_split_partition.

(** sending a matrix in pieces and adding what arrives adds the matrix *)
Theorem C24_transfer : forall (K : CRing) factor (M : sparse K) (own : lmat K), 0 < factor ->
  is_csr K M = true \/ is_csc K M = true -> nrow K own = fst (shape M) -> ncol K own = snd (shape M) ->
  exists pieces S, send_pieces K factor M = Some pieces /\ receive K (is_csr K M) own pieces = Some S /\
    nrow K S = nrow K own /\ ncol K S = ncol K own /\
    forall i j, i < nrow K own -> j < ncol K own -> ent K S i j = radd (ent K own i j) (entry M i j).
Proof. exact transfer_ok. Qed.
Print Assumptions C24_transfer.
Definition rows24 : list (list (nat * Z)) := [[(0, 1%Z)]; [(0, 2%Z); (1, 3%Z); (2, 4%Z)]; []; [(1, 5%Z)]; [(2, 6%Z)]].
Example C24_ex : split_A (indptr ZR rows24) 2 5 = Some (3, [0; 2; 3; 5]).
Proof. reflexivity. Qed.
Example C24_ex2 : option_map (map (@shape ZR)) (send_pieces ZR 2 (CSR ZR 3 rows24)) = Some [(2, 3); (1, 3); (2, 3)] /\
  match send_pieces ZR 2 (CSR ZR 3 rows24) with
  | Some ps => match receive ZR true (mkL ZR 5 3 (fun i j => Z.of_nat (10 * i))) ps with
               | Some T => map (fun i => map (ent ZR T i) (seq 0 3)) (seq 0 5) | None => [] end
  | None => [] end = [[1; 0; 0]; [12; 13; 14]; [20; 20; 20]; [30; 35; 30]; [40; 40; 46]]%Z.
Proof. split; reflexivity. Qed.

(** a csc matrix sent in pieces to a core holding a csr matrix is stacked the wrong way and refused *)
Theorem C24_mixed_storage_refuted :
  ~ (forall (K : CRing) factor (M : sparse K) csr (own : lmat K), 0 < factor ->
     is_csr K M = true \/ is_csc K M = true -> nrow K own = fst (shape M) -> ncol K own = snd (shape M) ->
     exists pieces S, send_pieces K factor M = Some pieces /\ receive K csr own pieces = Some S).
Proof.
  intros H. destruct (H ZR 1 (CSC ZR 2 [[(0, 1%Z)]; [(1, 2%Z)]]) true (mkL ZR 2 2 (fun _ _ => 0%Z)) ltac:(lia) (or_intror eq_refl) eq_refl eq_refl) as (ps & S & E1 & E2).
  injection E1 as <-. discriminate.
Qed.
Print Assumptions C24_mixed_storage_refuted.

(** C25 *)
Theorem C25_matrix_product : forall K SIZE n A B C, 0 < SIZE -> matmul K SIZE n A B = Some C ->
  forall i j, total K SIZE C i j =
    mm K n (total K SIZE (fun r => entry (part K A r))) (total K SIZE (fun r => entry (part K B r))) i j.
Proof. exact matmul_ok. Qed.
Print Assumptions C25_matrix_product.

(** with storage fitting the flags it is refused only if neither is regular and not both are in the master *)
Theorem C25_matrix_product_defined : forall K SIZE n A B, rd_get K SIZE A <> None -> rd_get K SIZE B <> None ->
  (matmul K SIZE n A B = None <->
   rd K A = RFalse /\ rd K B = RFalse /\
   ~ (forall r, 0 < r < SIZE -> nnz K (part K A r) = 0 /\ nnz K (part K B r) = 0)).
Proof. exact matmul_defined. Qed.
Print Assumptions C25_matrix_product_defined.
Definition A25 : GM ZR := mkGM ZR (fun r => nth r [CSR ZR 2 [[(0, 1%Z)]; [(1, 2%Z)]]; CSR ZR 2 [[]; [(0, 3%Z); (1, 1%Z)]]] (Dense ZR [])) RFalse.
Definition B25 : GM ZR := mkGM ZR (fun r => nth r [CSC ZR 2 [[(0, 1%Z)]; [(1, 4%Z)]]; CSC ZR 2 [[(1, 1%Z)]; [(0, 5%Z)]]] (Dense ZR [])) RColumn.
Example C25_ex : match matmul ZR 2 2 A25 B25 with
  | Some C => map (fun i => map (total ZR 2 C i) (seq 0 2)) (seq 0 2) = [[1; 5]; [6; 27]]%Z
              /\ map (fun r => map (fun i => map (C r i) (seq 0 2)) (seq 0 2)) (seq 0 2) = [[[1; 0]; [3; 12]]; [[0; 5]; [3; 15]]]%Z
  | None => False end.
Proof. split; reflexivity. Qed.

(** C26 *)
Theorem C26_matrix_vector : forall K SIZE n A v, 0 < SIZE ->
  master_dominating K SIZE (part K A) = true \/ (forall r, r < SIZE -> csr_ok K n (part K A r)) ->
  exists w, matvec_global K SIZE n A v = Some w /\
    forall i, vtotal K SIZE w i =
      matvec K n (total K SIZE (fun r => entry (part K A r))) (vtotal K SIZE (fun r => centry K (v r))) i.
Proof. exact (fun K SIZE n A v => matvec_gathered_ok K SIZE n A (gather_global K SIZE v)). Qed.
Print Assumptions C26_matrix_vector.

Theorem C26_matrix_full_vector : forall K SIZE n A v i,
  vtotal K SIZE (matvec_full K n A v) i = matvec K n (total K SIZE (fun r => entry (part K A r))) v i.
Proof. exact (fun K SIZE n A v i => matvec_total K n SIZE (fun r => entry (part K A r)) v i). Qed.
Print Assumptions C26_matrix_full_vector.
Example C26_ex : (forall r, r < 2 -> csr_ok ZR 2 (part ZR A25 r)) /\
  match matvec_global ZR 2 2 A25 (fun r => nth r [[(0, 1%Z); (1, 1%Z)]; [(1, 9%Z)]] []) with
  | Some w => map (vtotal ZR 2 w) (seq 0 2) = [1; 33]%Z /\ map (fun r => map (w r) (seq 0 2)) (seq 0 2) = [[1; 20]; [0; 13]]%Z
  | None => False end.
Proof.
  split; [|split; reflexivity]. intros r Hr. destruct r as [|[|r]]; [| |lia]; (split; [reflexivity|]); intros row p H1 H2; cbn in H1;
    intuition (subst; cbn in *; intuition (subst; cbn; lia)).
Qed.

(** a csc matrix spread over two cores: the product is zero *)
Theorem C26_csc_refuted :
  ~ (forall K SIZE n A v, 0 < SIZE -> (forall r, r < SIZE -> is_csc K (part K A r) = true) ->
     exists w, matvec_global K SIZE n A v = Some w /\
       forall i, vtotal K SIZE w i =
         matvec K n (total K SIZE (fun r => entry (part K A r))) (vtotal K SIZE (fun r => centry K (v r))) i).
Proof.
  intros H. destruct (H ZR 2 2 (mkGM ZR (fun r => if r =? 0 then CSC ZR 1 [[(0, 1%Z)]; []] else CSC ZR 1 [[]; [(0, 1%Z)]]) RFalse)
    (fun r => if r =? 0 then [(0, 3%Z); (1, 4%Z)] else []) ltac:(lia)) as (w & E & EQ).
  - intros r _. cbn. destruct (r =? 0); reflexivity.
  - specialize (EQ 0). vm_compute in E. injection E as <-. vm_compute in EQ. discriminate.
Qed.
Print Assumptions C26_csc_refuted.

(** C27 *)
Theorem C27_row_claim : forall K SIZE A, 0 < SIZE ->
  (claim_distribution_pattern K SIZE A = Some RRow <->
   (forall r, r < SIZE -> is_csr K (part K A r) = true) /\ disjoint_rows K SIZE (part K A)).
Proof. exact claim_row. Qed.
Print Assumptions C27_row_claim.

(** what the column check amounts to: every csc matrix passes *)
Theorem C27_column_claim_is_csc : forall K SIZE A, 0 < SIZE ->
  (claim_distribution_pattern K SIZE A = Some RColumn <-> forall r, r < SIZE -> is_csc K (part K A r) = true).
Proof. exact claim_column. Qed.
Print Assumptions C27_column_claim_is_csc.

Theorem C27_column_claim_refuted :
  ~ (forall K SIZE A, 0 < SIZE -> claim_distribution_pattern K SIZE A = Some RColumn -> disjoint_columns K SIZE (part K A)).
Proof.
  intros H. specialize (H ZR 2 (mkGM ZR (fun _ => CSC ZR 1 [[(0, 1%Z)]]) RFalse) ltac:(lia) eq_refl 0 1 0 0 0 ltac:(lia) ltac:(lia)).
  cbn in H. assert (X : 0 = 1) by (apply H; left; reflexivity). discriminate.
Qed.
Print Assumptions C27_column_claim_refuted.
Example C27_ex : claim_distribution_pattern ZR 2 A25 = Some RFalse /\
  claim_distribution_pattern ZR 2 (mkGM ZR (fun r => nth r [CSR ZR 2 [[(0, 1%Z)]; []]; CSR ZR 2 [[]; [(0, 3%Z); (1, 1%Z)]]] (Dense ZR [])) RFalse) = Some RRow.
Proof. split; reflexivity. Qed.

(** C28 *)
Theorem C28_gather_distributed : forall K SIZE n core v, 0 < SIZE -> distributed_check K SIZE n v = true ->
  (forall r, r < SIZE -> NoDup (map fst (v r))) ->
  core = 0 \/ (exists r, 0 < r < SIZE /\ v r <> []) ->
  forall i, i < n -> gather_distributed K SIZE core v i = vtotal K SIZE (fun r => centry K (v r)) i.
Proof. exact gather_distributed_ok. Qed.
Print Assumptions C28_gather_distributed.
Definition v28 (r : nat) : col ZR := nth r [[(2, 5%Z)]; [(0, 6%Z); (3, 7%Z)]; [(1, 8%Z)]] [].
Example C28_ex : distributed_check ZR 3 5 v28 = true /\ map (gather_distributed ZR 3 2 v28) (seq 0 5) = [6; 8; 5; 7; 0]%Z.
Proof. split; reflexivity. Qed.

(** everything in the master, gathered to another core: the result is that core's empty part *)
Theorem C28_master_part_refuted :
  ~ (forall K SIZE n core v, core < SIZE -> distributed_check K SIZE n v = true -> (forall r, r < SIZE -> NoDup (map fst (v r))) ->
     forall i, i < n -> gather_distributed K SIZE core v i = vtotal K SIZE (fun r => centry K (v r)) i).
Proof.
  intros H. specialize (H ZR 2 1 1 (fun r => if r =? 0 then [(0, 1%Z)] else []) ltac:(lia) eq_refl).
  assert (N : forall r, r < 2 -> NoDup (map fst ((fun r => if r =? 0 then [(0, 1%Z)] else []) r : col ZR))).
  { intros [|r] _; repeat constructor. intros []. }
  specialize (H N 0 ltac:(lia)). vm_compute in H. discriminate.
Qed.
Print Assumptions C28_master_part_refuted.

(** repeated indices within one core pass the check of the constructor but are not summed *)
Theorem C28_repeated_index_refuted :
  ~ (forall K SIZE n v, 0 < SIZE -> distributed_check K SIZE n v = true ->
     forall i, i < n -> gather_distributed K SIZE 0 v i = vtotal K SIZE (fun r => centry K (v r)) i).
Proof.
  intros H. specialize (H ZR 2 1 (fun r => if r =? 0 then [] else [(0, 1%Z); (0, 2%Z)]) ltac:(lia) eq_refl 0 ltac:(lia)).
  vm_compute in H. discriminate.
Qed.
Print Assumptions C28_repeated_index_refuted.
