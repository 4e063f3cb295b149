(* Reconstructed forms of one global cochain agree on the sides of cells. *)
From Coq Require Import Reals List Lia Lra Arith ZArith Bool.
From Verif Require Import TfiModel CtModel RingSum SpaceSpec DiscModel DiscSpec DiscProofs DiscProofs2 DiscProofs3 Disc2Model Disc2Spec Disc2Proofs.
From Verif Require Import ReconModel ReconSpec ReconProofs ReconProofs2 ReconProofs3.
From Verif Require Import TriModel TriSpec TriProofs TriProofs2 TriProofs5 TriProofs6 TriProofs7 TdiscModel TdiscSpec TdiscProofs TdiscProofs2 TdiscProofs3 TdiscProofs4.
From Verif Require Import TreconModel TreconSpec TreconProofs TreconProofs2.
Import ListNotations.
Open Scope R_scope.

Lemma nth_local {B} (f : nat -> B) n k d : (k < n)%nat -> nth k (map f (seq 0 n)) d = f k.
Proof. intros H. rewrite (nth_indep _ d (f 0%nat)) by (rewrite map_length, seq_length; exact H). rewrite map_nth, seq_nth by exact H. reflexivity. Qed.
Lemma rsum_rev_seq n (f : nat -> R) : rsum (seq 0 n) f = rsum (seq 0 n) (fun k => f (n - 1 - k)%nat).
Proof.
  rewrite <- (rsum_rev (seq 0 n) f). assert (E : rev (seq 0 n) = map (fun k => (n - 1 - k)%nat) (seq 0 n)).
  { apply (nth_ext _ _ 0%nat 0%nat); [rewrite rev_length, map_length; reflexivity|]. intros i Hi. rewrite rev_length, seq_length in Hi.
    rewrite rev_nth by (rewrite seq_length; exact Hi). rewrite seq_length, seq_nth by lia. rewrite (nth_local (fun k => (n - 1 - k)%nat)) by exact Hi. lia. }
  rewrite E. apply ReconProofs.rsum_map.
Qed.
(* the k-th node of a side *)
Definition npos (p m k : nat) : nat * nat := match m with O => (p, k) | S O => (0, k)%nat | _ => (k, p) end.
Definition dirm (m : nat) : bool := match m with 0 | 1 => true | _ => false end.
Definition line_loc (p a b k : nat) : loc0 := if (k =? 0)%nat then LV a else if (k =? p)%nat then LV b else on_line p a b k.
Lemma where0_npos p cells c m k : (1 <= p)%nat -> (m < 3)%nat -> (k <= p)%nat ->
  where0 p cells c (fst (npos p m k)) (snd (npos p m k)) = line_loc p (fst (ends (cl cells c) m)) (snd (ends (cl cells c) m)) k.
Proof.
  intros Hp Hm Hk. unfold where0, line_loc. destruct m as [|[|[|m]]]; [| | |lia]; cbn [npos fst snd ends];
  repeat match goal with |- context [(?a =? ?b)%nat] => destruct (Nat.eqb_spec a b); try lia end; try reflexivity; subst; try lia; reflexivity.
Qed.
Lemma line_swap p a b k : a <> b -> (1 <= p)%nat -> (k <= p)%nat -> line_loc p b a (p - k) = line_loc p a b k.
Proof.
  intros N Hp Hk. unfold line_loc, on_line. destruct (Nat.eqb_spec k 0) as [->|K0].
  - rewrite Nat.sub_0_r, Nat.eqb_refl. destruct (Nat.eqb_spec p 0); [lia|reflexivity].
  - destruct (Nat.eqb_spec k p) as [->|Kp]; [rewrite Nat.sub_diag; reflexivity|].
    destruct (Nat.eqb_spec (p - k) 0); [lia|]. destruct (Nat.eqb_spec (p - k) p); [lia|].
    destruct (Nat.ltb_spec a b), (Nat.ltb_spec b a); try lia; f_equal; lia.
Qed.
Section Sides.
Variables (n : list R) (P : Poly1).
Let p := pdeg P.
Hypothesis B : basis_of n P.
Hypothesis HS : sym_nodes p n.
Lemma node_pick (W : nat -> R) k : (k <= p)%nat -> rsum (seq 0 (S p)) (fun i => W i * node_fn P i (nth k n 0)) = W k.
Proof.
  intros Hk. destruct B as (_ & E & _). rewrite (rsum_one _ k); [rewrite E, Nat.eqb_refl by (assumption || reflexivity); ring|lia|].
  intros i Hi Ne. rewrite E by (unfold p in *; lia). destruct (Nat.eqb_spec i k); [lia|ring].
Qed.
Lemma end0 : nth 0 n 0 = -1. Proof. exact (proj1 (proj2 HS)). Qed.
Lemma endp : nth p n 0 = 1. Proof. destruct HS as (_ & Z & Y). replace (nth p n 0) with (nth (p - 0) n 0) by (f_equal; lia). rewrite Y by lia. rewrite Z. ring. Qed.
(* the functions on a side *)
Lemma that0_side c m t : (m < 3)%nat ->
  that0 P c (fst (side_pt m t)) (snd (side_pt m t)) = rsum (seq 0 (S p)) (fun k => node_val p c (fst (npos p m k)) (snd (npos p m k)) * node_fn P k t).
Proof.
  intros Hm. unfold that0, tsum2. cbn [size]. fold p. destruct m as [|[|[|m]]]; [| | |lia]; cbn [side_pt npos fst snd]; unfold factor_fn; cbn [fst snd].
  - apply rsum_ext. intros j _. rewrite <- endp.
    rewrite (rsum_ext _ _ (fun i => node_val p c i j * node_fn P j t * node_fn P i (nth p n 0))) by (intros; ring). rewrite (node_pick (fun i => node_val p c i j * node_fn P j t)) by lia. reflexivity.
  - apply rsum_ext. intros j _. rewrite <- end0.
    rewrite (rsum_ext _ _ (fun i => node_val p c i j * node_fn P j t * node_fn P i (nth 0 n 0))) by (intros; ring). rewrite (node_pick (fun i => node_val p c i j * node_fn P j t)) by lia. reflexivity.
  - rewrite rsum_swap. apply rsum_ext. intros i _. rewrite <- endp.
    rewrite (rsum_ext _ _ (fun j => node_val p c i j * node_fn P i t * node_fn P j (nth p n 0))) by (intros; ring). rewrite (node_pick (fun j => node_val p c i j * node_fn P i t)) by lia. reflexivity.
Qed.
Lemma that1_side o M e c m t : (m < 3)%nat ->
  that1 o P M e c (dirm m) (fst (side_pt m t)) (snd (side_pt m t)) = rsum (seq 0 p) (fun k => edge_val o p M e c (epos1 p m k) * edge_fn P k t).
Proof.
  intros Hm. unfold that1, tsum2. destruct m as [|[|[|m]]]; [| | |lia]; cbn [dirm side_pt epos1 fst snd size]; unfold factor_fn; cbn [fst snd]; fold p.
  - apply rsum_ext. intros j _. rewrite <- endp.
    rewrite (rsum_ext _ _ (fun i => edge_val o p M e c (Dy i j) * edge_fn P j t * node_fn P i (nth p n 0))) by (intros; ring). rewrite (node_pick (fun i => edge_val o p M e c (Dy i j) * edge_fn P j t)) by lia. reflexivity.
  - apply rsum_ext. intros j _. rewrite <- end0.
    rewrite (rsum_ext _ _ (fun i => edge_val o p M e c (Dy i j) * edge_fn P j t * node_fn P i (nth 0 n 0))) by (intros; ring). rewrite (node_pick (fun i => edge_val o p M e c (Dy i j) * edge_fn P j t)) by lia. reflexivity.
  - rewrite rsum_swap. apply rsum_ext. intros i _. rewrite <- endp.
    rewrite (rsum_ext _ _ (fun j => edge_val o p M e c (Dx i j) * edge_fn P i t * node_fn P j (nth p n 0))) by (intros; ring). rewrite (node_pick (fun j => edge_val o p M e c (Dx i j) * edge_fn P i t)) by lia. reflexivity.
Qed.
Variables (conds : list (nat * (point -> bool))) (pts : list point) (cells0 cells : list tri) (M : smap).
Hypothesis HE : make_mesh conds pts cells0 = Some (cells, M).
Hypothesis HO : no_overlap pts cells.
Hypothesis Hp : (1 <= p)%nat.
Hypothesis HM : mirrored P.
Let HK : mesh_ok pts cells := made_mesh conds pts cells0 cells M HE HO.
Let HD : describes cells M := proj1 (made_describes conds pts cells0 cells M HE HO).
Notation Fc c := (tct_mapping (corner_pt pts cells c 0) (corner_pt pts cells c 1) (corner_pt pts cells c 2)).
Notation Jc c := (tct_Jacobian_matrix (corner_pt pts cells c 0) (corner_pt pts cells c 1) (corner_pt pts cells c 2)).
Lemma side_image c m t : (m < 3)%nat -> image (Fc c) (fst (side_pt m t)) (snd (side_pt m t)) =
  between (pt pts (fst (ends (cl cells c) m))) (pt pts (snd (ends (cl cells c) m))) ((t + 1) / 2).
Proof.
  intros Hm. destruct (tct_sides (corner_pt pts cells c 0) (corner_pt pts cells c 1) (corner_pt pts cells c 2) t) as (_ & T1 & T2 & T3).
  destruct m as [|[|[|m]]]; [| | |lia]; cbn [side_pt fst snd ends]; assumption.
Qed.
Lemma ends_apart c m : (c < length cells)%nat -> (m < 3)%nat ->
  fst (ends (cl cells c) m) <> snd (ends (cl cells c) m) /\ pt pts (fst (ends (cl cells c) m)) <> pt pts (snd (ends (cl cells c) m)).
Proof.
  intros Hc Hm. pose proof (proj1 HK c Hc) as W. destruct (cl cells c) as [[a b] d] eqn:E. unfold ccw in W. 
  assert (X : pt pts (fst (ends (a, b, d) m)) <> pt pts (snd (ends (a, b, d) m))).
  { intros X. unfold area2 in W. destruct m as [|[|[|m]]]; [| | |lia]; cbn [ends corner fst snd] in X; rewrite X in W; lra. }
  split; [|exact X]. intros Y. apply X. rewrite Y. reflexivity.
Qed.
Lemma same_point a b t u : a <> b -> between a b ((t + 1) / 2) = between a b ((u + 1) / 2) -> t = u.
Proof.
  intros N E. destruct a as [ax0 ay], b as [bx by0]. unfold between in E. cbn [fst snd] in E. injection E as E1 E2.
  destruct (Req_dec bx ax0) as [->|Nx].
  - destruct (Req_dec by0 ay) as [->|Ny]; [contradiction|]. assert ((t - u) * (by0 - ay) = 0) as Z by lra. apply Rmult_integral in Z as [Z|Z]; lra.
  - assert ((t - u) * (bx - ax0) = 0) as Z by lra. apply Rmult_integral in Z as [Z|Z]; lra.
Qed.
Section Pair.
Variables (c m j q : nat) (s : bool).
Hypotheses (Hc : (c < length cells)%nat) (Hm : (m < 3)%nat) (S1 : side_at M c m = SI j s q).
Lemma pair_facts : (j < length cells)%nat /\ (q < 3)%nat /\ j <> c /\ ends (cl cells c) m = (if s then ends (cl cells j) q else swap (ends (cl cells j) q)).
Proof. pose proof (proj2 HD c m Hc Hm) as D. rewrite S1 in D. exact D. Qed.
Lemma params t u : image (Fc c) (fst (side_pt m t)) (snd (side_pt m t)) = image (Fc j) (fst (side_pt q u)) (snd (side_pt q u)) -> u = if s then t else - t.
Proof.
  destruct pair_facts as (Hj & Hq & Ne & E). intros H. rewrite !side_image in H by assumption. rewrite E in H.
  destruct (ends_apart j q Hj Hq) as [_ N]. destruct s.
  - symmetry. exact (same_point _ _ _ _ N H).
  - apply (same_point _ _ _ _ N). rewrite <- H. unfold swap, between. cbn [fst snd]. f_equal; field.
Qed.
Theorem conform0 A N X t u : numbering0 p cells M = Some (A, N) ->
  image (Fc c) (fst (side_pt m t)) (snd (side_pt m t)) = image (Fc j) (fst (side_pt q u)) (snd (side_pt q u)) ->
  that0 P (local0 p A X c) (fst (side_pt m t)) (snd (side_pt m t)) = that0 P (local0 p A X j) (fst (side_pt q u)) (snd (side_pt q u)).
Proof.
  intros EA EI. rewrite (params t u EI). destruct pair_facts as (Hj & Hq & Ne & E). rewrite !that0_side by assumption.
  destruct (final0_grid conds pts cells0 cells M p HE HO Hp) as (A' & N' & EA' & _ & _ & _ & J0 & _). rewrite EA in EA'. injection EA' as <- <-.
  assert (V : forall c m k, (c < length cells)%nat -> (m < 3)%nat -> (k <= p)%nat -> node_val p (local0 p A X c) (fst (npos p m k)) (snd (npos p m k)) =
     nth (Z.to_nat (num0 p A c (Z.to_nat (tln0 p (fst (npos p m k)) (snd (npos p m k)))))) X 0).
  { intros c' m' k Hc' Hm' Hk. unfold node_val, local0.
    assert (NO : node_ok p (node_at (fst (npos p m' k)) (snd (npos p m' k)))) by (destruct m' as [|[|[|m']]]; [| | |lia]; cbn [npos fst snd]; destruct k, p; cbn; lia).
    pose proof (proj1 (numbers_node p) _ NO) as R1. rewrite nth_local by lia. rewrite <- dofn_at. reflexivity. }
  assert (Hnp : forall m k, (m < 3)%nat -> (k <= p)%nat -> (fst (npos p m k) <= p)%nat /\ (snd (npos p m k) <= p)%nat).
  { intros m' k Hm' Hk. destruct m' as [|[|[|m']]]; [| | |lia]; cbn [npos fst snd]; lia. }
  destruct (ends_apart j q Hj Hq) as [N0 _].
  destruct s.
  - apply rsum_ext. intros k Hk. apply in_seq in Hk. rewrite !V by (assumption || lia). f_equal. f_equal. f_equal.
    destruct (Hnp m k Hm ltac:(lia)), (Hnp q k Hq ltac:(lia)). apply J0; try assumption. rewrite !where0_npos by (assumption || lia). rewrite E. reflexivity.
  - rewrite (rsum_rev_seq (S p) (fun k => node_val p (local0 p A X j) _ _ * _)). apply rsum_ext. intros k Hk. apply in_seq in Hk.
    replace (S p - 1 - k)%nat with (p - k)%nat by lia. destruct HM as [HM0 _]. unfold p in *. rewrite HM0 by lia. fold p. fold p in V, Hnp, J0, EA, Hp. rewrite !V by (assumption || lia). f_equal. f_equal. f_equal.
    destruct (Hnp m k Hm ltac:(lia)), (Hnp q (p - k)%nat Hq ltac:(lia)). apply J0; try assumption. rewrite !where0_npos by (assumption || lia). rewrite E. unfold swap. cbn [fst snd].
    symmetry. apply line_swap; [congruence|exact Hp|unfold p; lia].
Qed.
Definition sg (o : orient) (m : nat) : Z := match o with Inner => 1%Z | Outer => if dirm m then 1%Z else (-1)%Z end.
Lemma side_col c' m' t : (m' < 3)%nat -> mcol (Jc c' (fst (side_pt m' t)) (snd (side_pt m' t))) (dirm m') = (1 / 2 * fst (side_vec pts cells c' m'), 1 / 2 * snd (side_vec pts cells c' m')).
Proof.
  intros Hm'. unfold side_vec, mcol, comp, corner_pt. destruct m' as [|[|[|m']]]; [| | |lia]; cbn [side_pt dirm ends fst snd]; rewrite tct_J; cbn [fst snd]; f_equal; field.
Qed.
Lemma trace_side o c' m' t w C : (m' < 3)%nat ->
  tpulls1 o (Jc c' (fst (side_pt m' t)) (snd (side_pt m' t))) w (fun d => that1 o P M c' C d (fst (side_pt m' t)) (snd (side_pt m' t))) ->
  trace o w (side_vec pts cells c' m') = 2 * (IZR (sg o m') * rsum (seq 0 p) (fun k => edge_val o p M c' C (epos1 p m' k) * edge_fn P k t)).
Proof.
  intros Hm' T. specialize (T (dirm m')). rewrite side_col in T by exact Hm'. cbv beta in T. rewrite that1_side in T by exact Hm'. rewrite <- T.
  destruct o; unfold trace, sg, dot2, cross2; cbn [fst snd]; [destruct (dirm m')|]; field.
Qed.
Theorem conform1 o A N X t u w w' : numbering1 o p M = Some (A, N) ->
  image (Fc c) (fst (side_pt m t)) (snd (side_pt m t)) = image (Fc j) (fst (side_pt q u)) (snd (side_pt q u)) ->
  tpulls1 o (Jc c (fst (side_pt m t)) (snd (side_pt m t))) w (fun d => that1 o P M c (local1 o p A X c) d (fst (side_pt m t)) (snd (side_pt m t))) ->
  tpulls1 o (Jc j (fst (side_pt q u)) (snd (side_pt q u))) w' (fun d => that1 o P M j (local1 o p A X j) d (fst (side_pt q u)) (snd (side_pt q u))) ->
  trace o w (side_vec pts cells c m) = trace o w' (side_vec pts cells c m).
Proof.
  intros EA EI. rewrite (params t u EI). clear EI. intros T T'. destruct pair_facts as (Hj & Hq & Ne & E).
  assert (SV : side_vec pts cells c m = (IZR (if s then 1 else -1) * fst (side_vec pts cells j q), IZR (if s then 1 else -1) * snd (side_vec pts cells j q))).
  { unfold side_vec. rewrite E. destruct s, (ends (cl cells j) q) as [a b]; unfold swap; cbn [fst snd]; f_equal; ring. }
  assert (TT : trace o w' (side_vec pts cells c m) = IZR (if s then 1 else -1) * trace o w' (side_vec pts cells j q)).
  { rewrite SV. destruct o; unfold trace, dot2, cross2; cbn [fst snd]; ring. }
  rewrite TT, (trace_side o c m t w _ Hm T), (trace_side o j q _ w' _ Hq T'). clear T T' TT SV.
  destruct (final1 conds pts cells0 cells M p HE HO Hp o) as (A' & N' & EA' & _ & _ & _ & J1 & _). rewrite EA in EA'. injection EA' as <- <-.
  assert (V : forall c m k, (c < length cells)%nat -> (m < 3)%nat -> (k < p)%nat -> edge_val o p M c (local1 o p A X c) (epos1 p m k) =
     IZR (if minus o M c m then -1 else 1) * nth (Z.to_nat (num1 o p A c (Z.to_nat (dofe o p (epos1 p m k))))) X 0).
  { intros c' m' k Hc' Hm' Hk. destruct (epos1_sel p m' k Hp Hm' Hk) as [O1 O2].
    assert (EV : edge_val o p M c' (local1 o p A X c') (epos1 p m' k) = IZR (transition o p M c' (Z.to_nat (dofe o p (epos1 p m' k)))) * nth (Z.to_nat (dofe o p (epos1 p m' k))) (local1 o p A X c') 0).
    { unfold edge_val. destruct (epos1 p m' k) as [i0 [|j0]|i0 j0]; [cbn in O1; lia|reflexivity..]. }
    rewrite EV, (transition_on o p M c' m') by assumption. f_equal. unfold local1. pose proof (proj1 (numbers_edge o p) _ O1) as R1. rewrite nth_local by lia. reflexivity. }
  destruct (ends_apart j q Hj Hq) as [N0 _].
  assert (S2 : side_at M j q = SI c s m) by (apply (proj1 (proj2 (proj2 (proj2 (made_ok conds pts cells0 cells M HE)) HO))); assumption).
  pose proof (sign_product p cells M Hp o c j m q s Hc Hj ltac:(congruence) Hm Hq S1 S2 E) as SP.
  pose proof (mesh_coherent pts cells c m j q s HK Hc Hj Hm Hq ltac:(congruence) E) as MC.
  assert (SG : (sg o m * (if minus o M c m then -1 else 1) = (if s then 1 else -1) * (sg o q * (if minus o M j q then -1 else 1)))%Z).
  { clear - SP MC Hm Hq. destruct m as [|[|[|]]]; [| | |lia]; (destruct q as [|[|[|]]]; [| | |lia]);
      destruct (minus o M c _), (minus o M j _), o, s; cbn in *; try reflexivity; try discriminate. }
  rewrite (rsum_ext (seq 0 p) _ (fun k => nth (Z.to_nat (num1 o p A c (Z.to_nat (dofe o p (epos1 p m k))))) X 0 * edge_fn P k t * IZR (if minus o M c m then -1 else 1)))
    by (intros k Hk; apply in_seq in Hk; rewrite V by (assumption || lia); ring).
  rewrite (rsum_ext (seq 0 p) (fun k => edge_val o p M j _ _ * _) (fun k => nth (Z.to_nat (num1 o p A j (Z.to_nat (dofe o p (epos1 p q k))))) X 0 * edge_fn P k (if s then t else - t) * IZR (if minus o M j q then -1 else 1)))
    by (intros k Hk; apply in_seq in Hk; rewrite V by (assumption || lia); ring).
  rewrite <- !rsum_scal.
  assert (SUM : rsum (seq 0 p) (fun k => nth (Z.to_nat (num1 o p A c (Z.to_nat (dofe o p (epos1 p m k))))) X 0 * edge_fn P k t) =
    rsum (seq 0 p) (fun k => nth (Z.to_nat (num1 o p A j (Z.to_nat (dofe o p (epos1 p q k))))) X 0 * edge_fn P k (if s then t else - t))).
  { clear SG SP MC. destruct s.
    - apply rsum_ext. intros k Hk. apply in_seq in Hk. f_equal. f_equal. f_equal.
      apply J1; try assumption; try (apply epos1_sel; assumption || lia). rewrite !where1_epos by (assumption || lia). rewrite E. reflexivity.
    - rewrite (rsum_rev_seq p (fun k => nth (Z.to_nat (num1 o p A j _)) X 0 * _)). apply rsum_ext. intros k Hk. apply in_seq in Hk.
      replace (edge_fn P (p - 1 - k) (- t)) with (edge_fn P k t) by (symmetry; apply (proj2 HM k t); lia). f_equal. f_equal. f_equal.
      apply J1; try assumption; try (apply epos1_sel; assumption || lia). rewrite !where1_epos by (assumption || lia). rewrite E. unfold swap. cbn [fst snd].
      symmetry. apply on_seg_swap; [congruence|lia]. }
  rewrite SUM. set (Z0 := rsum (seq 0 p) _). transitivity (2 * (Z0 * IZR (sg o m * (if minus o M c m then -1 else 1)))); [rewrite mult_IZR; ring|]. rewrite SG, !mult_IZR. ring.
Qed.
End Pair.
End Sides.
