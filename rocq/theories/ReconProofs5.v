(* Mass matrices are symmetric and positive definite. *)
From Coq Require Import Reals List ZArith Lia Lra Bool.
From Verif Require Import TfiModel TfiSpec TfiProofs CtModel CtSpec CtProofs RingSum SpaceModel SpaceSpec SpaceProofs SpaceProofs2 SpaceProofs3.
From Verif Require Import DiscModel DiscSpec DiscProofs DiscProofs2 DiscProofs3 ReconModel ReconSpec ReconProofs ReconProofs2 ReconProofs3 ReconProofs4.
Import ListNotations.
Open Scope R_scope.

Lemma kmat_at {A B} (L : list A) (M : list B) K i j o t : nth_error L i = Some o -> nth_error M j = Some t -> entry_at (kmat L M K) i j = K o t.
Proof.
  intros Ho Ht. unfold entry_at, kmat. erewrite (nth_error_nth (map _ L) i []) by (rewrite nth_error_map, Ho; reflexivity).
  apply nth_error_nth. rewrite nth_error_map, Ht. reflexivity.
Qed.
Lemma kmat_sym {A} (L : list A) K : (forall o t, K o t = K t o) -> symmetric (kmat L L K) (length L).
Proof.
  intros H. split; [apply shape_kmat|]. intros i j Hi Hj.
  destruct (nth_error L i) as [o|] eqn:Eo; [|apply nth_error_None in Eo; lia].
  destruct (nth_error L j) as [t|] eqn:Et; [|apply nth_error_None in Et; lia].
  rewrite (kmat_at L L K i j o t Eo Et), (kmat_at L L K j i t o Et Eo). apply H.
Qed.
Lemma ff_sym fac orth J d e x : (forall d e j, fac d e j = fac e d j) -> ff fac orth J d e x = ff fac orth J e d x.
Proof. intros H. unfold ff. destruct orth; [|apply H]. destruct d, e; cbn [ceqb]; reflexivity || apply H. Qed.
Theorem inner0_sym s q J : symmetric (inner0 s s q J) (length (cells (degrees s) nodes3)).
Proof. rewrite inner0_kmat. apply kmat_sym. intros. apply entry_sym. Qed.
Theorem inner3_sym s q J : symmetric (inner3 s s q J) (length (cells (degrees s) volumes3)).
Proof. rewrite inner3_kmat. apply kmat_sym. intros. apply entry_sym. Qed.
Theorem inner1_sym same orth s q J : symmetric (inner1 same orth s s q J) (length (cells (degrees s) edges3)).
Proof.
  rewrite inner1_kmat by reflexivity. apply kmat_sym. intros o t. rewrite entry_sym. unfold entry. apply rsum_ext. intros wx _.
  rewrite (ff_sym fac1 orth J (along o) (along t)) by (intros; apply fac1_sym). reflexivity.
Qed.
Theorem inner2_sym same orth s q J : symmetric (inner2 same orth s s q J) (length (cells (degrees s) faces3)).
Proof.
  rewrite inner2_kmat by reflexivity. apply kmat_sym. intros o t. rewrite entry_sym. unfold entry. apply rsum_ext. intros wx _.
  rewrite (ff_sym (fac2 orth) orth J (normal o) (normal t)) by (intros; apply fac2_sym). reflexivity.
Qed.

(* ---------- definite ---------- *)
Lemma rsum_nonneg {A} (l : list A) f : (forall a, In a l -> 0 <= f a) -> 0 <= rsum l f.
Proof.
  induction l as [|a l IH]; intros H; [unfold rsum; cbn; lra|]. rewrite rsum_cons. assert (0 <= f a) by (apply H; left; reflexivity).
  assert (0 <= rsum l f) by (apply IH; intros b I; apply H; right; exact I). lra.
Qed.
Lemma rsum_null {A} (l : list A) f : (forall a, In a l -> 0 <= f a) -> rsum l f = 0 -> forall a, In a l -> f a = 0.
Proof.
  induction l as [|a l IH]; intros H Z b I; [destruct I|]. rewrite rsum_cons in Z. assert (0 <= f a) by (apply H; left; reflexivity).
  assert (0 <= rsum l f) by (apply rsum_nonneg; intros c Ic; apply H; right; exact Ic).
  destruct I as [<-|I]; [lra|]. apply IH; [intros c Ic; apply H; right; exact Ic|lra|exact I].
Qed.
Lemma in_rule r x : rule_ok r -> In x (fst r) -> exists w, In (x, w) (combine (fst r) (snd r)).
Proof.
  destruct r as [l m]. unfold rule_ok. cbn [fst snd]. revert m. induction l as [|a l IH]; intros [|b m] L I; try discriminate; [destruct I|].
  destruct I as [<-|I]; [exists b; left; reflexivity|]. destruct (IH m) as [w Hw]; [cbn in L; lia|exact I|]. exists w. right. exact Hw.
Qed.
Section Quad.
Variable q : Rule3.
Hypothesis Rq : rules_ok q.
Hypothesis Pw : positive_weights q.
Let w_pos a b d : In a (combine (fst (q0 q)) (snd (q0 q))) -> In b (combine (fst (q1 q)) (snd (q1 q))) -> In d (combine (fst (q2 q)) (snd (q2 q))) ->
  0 < snd a * snd b * snd d.
Proof.
  destruct a as [a a'], b as [b b'], d as [d d']. intros A B D. apply in_combine_r in A, B, D. cbn [snd].
  assert (0 < a') by (apply Pw; auto). assert (0 < b') by (apply Pw; auto). assert (0 < d') by (apply Pw; auto).
  apply Rmult_lt_0_compat; [apply Rmult_lt_0_compat|]; assumption.
Qed.
Lemma quad_nonneg h : on_grid (qmesh q) (fun x y z => 0 <= h x y z) -> 0 <= quad3 q h.
Proof.
  intros H. unfold quad3. apply rsum_nonneg. intros a A. apply rsum_nonneg. intros b B. apply rsum_nonneg. intros d D.
  apply Rmult_le_pos; [|left; apply w_pos; assumption].
  destruct a as [a a'], b as [b b'], d as [d d']. apply H; cbn [qmesh mx my mz fst]; eapply in_combine_l; eassumption.
Qed.
Lemma quad_null h : on_grid (qmesh q) (fun x y z => 0 <= h x y z) -> quad3 q h = 0 -> on_grid (qmesh q) (fun x y z => h x y z = 0).
Proof.
  intros H Z x y z X Y Z'. cbn [qmesh mx my mz] in *. destruct Rq as (R0 & R1 & R2).
  destruct (in_rule _ _ R0 X) as [wx Wx]. destruct (in_rule _ _ R1 Y) as [wy Wy]. destruct (in_rule _ _ R2 Z') as [wz Wz].
  assert (P : forall a b d, In a (combine (fst (q0 q)) (snd (q0 q))) -> In b (combine (fst (q1 q)) (snd (q1 q))) -> In d (combine (fst (q2 q)) (snd (q2 q))) ->
     0 <= h (fst a) (fst b) (fst d) * (snd a * snd b * snd d)).
  { intros a b d A B D. apply Rmult_le_pos; [|left; apply w_pos; assumption].
    destruct a as [a a'], b as [b b'], d as [d d']. apply H; cbn [qmesh mx my mz fst]; eapply in_combine_l; eassumption. }
  unfold quad3 in Z.
  assert (Z1 := rsum_null _ _ (fun a A => rsum_nonneg _ _ (fun b B => rsum_nonneg _ _ (fun d D => P a b d A B D))) Z _ Wx). cbv beta in Z1.
  assert (Z2 := rsum_null _ _ (fun b B => rsum_nonneg _ _ (fun d D => P (x, wx) b d Wx B D)) Z1 _ Wy). cbv beta in Z2.
  assert (Z3 := rsum_null _ _ (fun d D => P (x, wx) (y, wy) d Wx Wy D) Z2 _ Wz). cbn [fst snd] in Z3.
  assert (W := w_pos _ _ _ Wx Wy Wz). cbn [snd] in W. apply Rmult_integral in Z3 as [Z3|Z3]; [exact Z3|lra].
Qed.
Variable s : Space3.
Hypothesis Sep : rules_separate q s.
Lemma sep_factor l P (b : bool) : separates l P -> forall u : nat -> R,
  (forall y, In y l -> rsum (seq 0 (size (pdeg P) b)) (fun i => u i * factor_fn P (b, i) y) = 0) -> forall i, (i < size (pdeg P) b)%nat -> u i = 0.
Proof.
  intros [S0 S1] u H i Hi. destruct b; cbn [size] in *; [apply S1; [exact H|exact Hi]|apply S0; [exact H|lia]].
Qed.
Lemma tsum_null a b d W : on_grid (qmesh q) (fun x y z => tsum s a b d W x y z = 0) ->
  forall i j k, (i < size (pdeg (s0 s)) a)%nat -> (j < size (pdeg (s1 s)) b)%nat -> (k < size (pdeg (s2 s)) d)%nat -> W i j k = 0.
Proof.
  intros H i j k Hi Hj Hk. destruct Sep as (S0 & S1 & S2).
  apply (sep_factor _ _ a S0 (fun i => W i j k)); [|exact Hi]. intros x X.
  apply (sep_factor _ _ b S1 (fun j => rsum (seq 0 (size (pdeg (s0 s)) a)) (fun i => W i j k * factor_fn (s0 s) (a, i) x))); [|exact Hj]. intros y Y.
  apply (sep_factor _ _ d S2 (fun k => rsum (seq 0 (size (pdeg (s1 s)) b)) (fun j => rsum (seq 0 (size (pdeg (s0 s)) a)) (fun i => W i j k * factor_fn (s0 s) (a, i) x) * factor_fn (s1 s) (b, j) y))); [|exact Hk].
  intros z Z. rewrite <- (H x y z X Y Z). unfold tsum. apply rsum_ext. intros k' _. rewrite rsum_scal. apply rsum_ext. intros j' _.
  rewrite !rsum_scal. apply rsum_ext. intros i' _. ring.
Qed.
Lemma zero_map (W : cell -> R) cs : (forall c, In c cs -> W c = 0) -> map W cs = repeat 0 (length cs).
Proof. intros H. induction cs as [|c cs IH]; [reflexivity|]. cbn. rewrite (H c), IH; [reflexivity| |left; reflexivity]. intros e I. apply H. right. exact I. Qed.
Lemma null_t (W : cell -> R) a b d : (forall i j k, (i < size (pdeg (s0 s)) a)%nat -> (j < size (pdeg (s1 s)) b)%nat -> (k < size (pdeg (s2 s)) d)%nat -> W (c3 a b d i j k) = 0) ->
  forall c, In c (cells_t (degrees s) [a; b; d]) -> W c = 0.
Proof.
  intros H c I0. assert (T := In_cells_t [a; b; d] (degrees s) c eq_refl I0). apply (In_cells_t' _ [a; b; d]) in I0; [|reflexivity].
  destruct c as [|[a' i] [|[b' j] [|[d' k] [|? ?]]]]; try discriminate T. cbn [map fst] in T. injection T as -> -> ->. unfold degrees in I0.
  inversion I0 as [|? ? ? ? B1 E1]; subst. inversion E1 as [|? ? ? ? B2 E2]; subst. inversion E2 as [|? ? ? ? B3 E3]; subst. cbn [fst snd] in *.
  apply (H i j k); assumption.
Qed.
Lemma null0 c : length c = length (cells (degrees s) nodes3) -> on_grid (qmesh q) (fun x y z => hat0 s c x y z = 0) -> c = repeat 0 (length (cells (degrees s) nodes3)).
Proof.
  intros L H. assert (E := as_map (cells (degrees s) nodes3) c (NoDup_cells _ _ (nodes3_ok _ _ _)) L). revert E.
  generalize (fun e => nth (SpaceProofs.pos (cells (degrees s) nodes3) e) c 0). intros W Ec. rewrite Ec in H. rewrite Ec at 1. clear Ec. apply zero_map. intros e I.
  apply in_flat_map in I as (t & Ht & I). destruct Ht as [<-|[]]; revert e I. apply null_t. apply (tsum_null false false false). intros x y z X Y Z.
  rewrite <- (H x y z X Y Z), hat0_t. reflexivity.
Qed.
Lemma null3 c : length c = length (cells (degrees s) volumes3) -> on_grid (qmesh q) (fun x y z => hat3 s c x y z = 0) -> c = repeat 0 (length (cells (degrees s) volumes3)).
Proof.
  intros L H. assert (E := as_map (cells (degrees s) volumes3) c (NoDup_cells _ _ (volumes3_ok _ _ _)) L). revert E.
  generalize (fun e => nth (SpaceProofs.pos (cells (degrees s) volumes3) e) c 0). intros W Ec. rewrite Ec in H. rewrite Ec at 1. clear Ec. apply zero_map. intros e I.
  apply in_flat_map in I as (t & Ht & I). destruct Ht as [<-|[]]; revert e I. apply null_t. apply (tsum_null true true true). intros x y z X Y Z.
  rewrite <- (H x y z X Y Z), hat3_t. reflexivity.
Qed.
Lemma null1 c : length c = length (cells (degrees s) edges3) -> (forall d, on_grid (qmesh q) (fun x y z => hat1 s c d x y z = 0)) -> c = repeat 0 (length (cells (degrees s) edges3)).
Proof.
  intros L H. assert (E := as_map (cells (degrees s) edges3) c (NoDup_cells _ _ (edges3_ok _ _ _)) L). revert E.
  generalize (fun e => nth (SpaceProofs.pos (cells (degrees s) edges3) e) c 0). intros W Ec. rewrite Ec in H. rewrite Ec at 1. clear Ec. apply zero_map. intros e I.
  apply in_flat_map in I as (t & Ht & I). destruct Ht as [<-|[<-|[<-|[]]]]; revert e I; apply null_t.
  - apply (tsum_null true false false). intros x y z X Y Z. rewrite <- (H cX x y z X Y Z), hat1_t. reflexivity.
  - apply (tsum_null false true false). intros x y z X Y Z. rewrite <- (H cY x y z X Y Z), hat1_t. reflexivity.
  - apply (tsum_null false false true). intros x y z X Y Z. rewrite <- (H cZ x y z X Y Z), hat1_t. reflexivity.
Qed.
Lemma null2 c : length c = length (cells (degrees s) faces3) -> (forall d, on_grid (qmesh q) (fun x y z => hat2 s c d x y z = 0)) -> c = repeat 0 (length (cells (degrees s) faces3)).
Proof.
  intros L H. assert (E := as_map (cells (degrees s) faces3) c (NoDup_cells _ _ (faces3_ok _ _ _)) L). revert E.
  generalize (fun e => nth (SpaceProofs.pos (cells (degrees s) faces3) e) c 0). intros W Ec. rewrite Ec in H. rewrite Ec at 1. clear Ec. apply zero_map. intros e I.
  apply in_flat_map in I as (t & Ht & I). destruct Ht as [<-|[<-|[<-|[]]]]; revert e I; apply null_t.
  - apply (tsum_null false true true). intros x y z X Y Z. rewrite <- (H cX x y z X Y Z), hat2_t. reflexivity.
  - apply (tsum_null true false true). intros x y z X Y Z. rewrite <- (H cY x y z X Y Z), hat2_t. reflexivity.
  - apply (tsum_null true true false). intros x y z X Y Z. rewrite <- (H cZ x y z X Y Z), hat2_t. reflexivity.
Qed.
Variables (J : ejac) (same orth : bool).
Hypothesis Dp : on_grid (qmesh q) (fun x y z => 0 < det3 (J x y z)).
Hypothesis Di : orth = true -> on_grid (qmesh q) (fun x y z => diagonal (J x y z)).
Let N : on_grid (qmesh q) (fun x y z => det3 (J x y z) <> 0).
Proof. intros x y z X Y Z. assert (D := Dp x y z X Y Z). cbv beta in D. lra. Qed.
Lemma dot_nonneg v : 0 <= dot v v.
Proof. unfold dot, csum. destruct v as [[a b] c]. cbn [TfiModel.get]. nra. Qed.
Lemma dot_null v : dot v v = 0 -> forall d, TfiModel.get v d = 0.
Proof. unfold dot, csum. destruct v as [[a b] c]. cbn [TfiModel.get]. intros H [| |]; nra. Qed.
Theorem inner0_pos : positive_definite (inner0 s s q J) (length (cells (degrees s) nodes3)).
Proof.
  intros c L. rewrite (inner0_ok s s q J Rq).
  assert (P : on_grid (qmesh q) (fun x y z => 0 <= det3 (J x y z) * (hat0 s c x y z * hat0 s c x y z))).
  { intros x y z X Y Z. assert (D := Dp x y z X Y Z). cbv beta in D. apply Rmult_le_pos; [lra|]. apply Rle_0_sqr. }
  split; [apply quad_nonneg; exact P|]. intros Z0. apply null0; [exact L|]. intros x y z X Y Z.
  assert (Q := quad_null _ P Z0 x y z X Y Z). cbv beta in Q. assert (D := Dp x y z X Y Z). cbv beta in D.
  apply Rmult_integral in Q as [Q|Q]; [lra|]. apply Rmult_integral in Q as [Q|Q]; exact Q.
Qed.
Theorem inner3_pos : positive_definite (inner3 s s q J) (length (cells (degrees s) volumes3)).
Proof.
  intros c L. set (v := fun x y z => hat3 s c x y z / det3 (J x y z)).
  assert (Pv : on_grid (qmesh q) (fun x y z => pulls3 (J x y z) (v x y z) (hat3 s c x y z))).
  { intros x y z X Y Z. unfold pulls3, v. assert (D := N x y z X Y Z). cbv beta in D. field. exact D. }
  rewrite (inner3_ok s s q J Rq N c c v v Pv Pv).
  assert (P : on_grid (qmesh q) (fun x y z => 0 <= det3 (J x y z) * (v x y z * v x y z))).
  { intros x y z X Y Z. assert (D := Dp x y z X Y Z). cbv beta in D. apply Rmult_le_pos; [lra|]. apply Rle_0_sqr. }
  split; [apply quad_nonneg; exact P|]. intros Z0. apply null3; [exact L|]. intros x y z X Y Z.
  assert (Q := quad_null _ P Z0 x y z X Y Z). cbv beta in Q. assert (D := Dp x y z X Y Z). cbv beta in D.
  assert (v x y z = 0) as V by (apply Rmult_integral in Q as [Q|Q]; [lra|]; apply Rmult_integral in Q as [Q|Q]; exact Q).
  assert (P3 := Pv x y z X Y Z). unfold pulls3 in P3. rewrite V in P3. lra.
Qed.
Theorem inner1_pos : positive_definite (inner1 same orth s s q J) (length (cells (degrees s) edges3)).
Proof.
  intros c L. set (v := fun x y z => value1 false (ct_inverse_Jacobian_matrix (J x y z)) (hat1 s c cX x y z, hat1 s c cY x y z, hat1 s c cZ x y z)).
  assert (Pv : on_grid (qmesh q) (fun x y z => pulls1 (J x y z) (v x y z) (fun d => hat1 s c d x y z))).
  { intros x y z X Y Z d. unfold v. rewrite (value1_pulls false (J x y z) _ (N x y z X Y Z)) by discriminate. destruct d; reflexivity. }
  rewrite (inner1_ok s s q J same orth Rq N Di (fun _ => eq_refl) c c v v Pv Pv).
  assert (P : on_grid (qmesh q) (fun x y z => 0 <= det3 (J x y z) * dot (v x y z) (v x y z))).
  { intros x y z X Y Z. assert (D := Dp x y z X Y Z). cbv beta in D. apply Rmult_le_pos; [lra|]. apply dot_nonneg. }
  split; [apply quad_nonneg; exact P|]. intros Z0. apply null1; [exact L|]. intros d x y z X Y Z.
  assert (Q := quad_null _ P Z0 x y z X Y Z). cbv beta in Q. assert (D := Dp x y z X Y Z). cbv beta in D.
  apply Rmult_integral in Q as [Q|Q]; [lra|]. rewrite <- (Pv x y z X Y Z d). unfold dot, csum. rewrite !(dot_null _ Q). ring.
Qed.
Theorem inner2_pos : positive_definite (inner2 same orth s s q J) (length (cells (degrees s) faces3)).
Proof.
  intros c L. set (v := fun x y z => value2 false (ct_inverse_Jacobian_matrix (J x y z)) (hat2 s c cX x y z, hat2 s c cY x y z, hat2 s c cZ x y z)).
  assert (Pv : on_grid (qmesh q) (fun x y z => pulls2 (J x y z) (v x y z) (fun d => hat2 s c d x y z))).
  { intros x y z X Y Z d. unfold v. rewrite (value2_pulls false (J x y z) _ (N x y z X Y Z)) by discriminate. destruct d; reflexivity. }
  rewrite (inner2_ok s s q J same orth Rq N Di (fun _ => eq_refl) c c v v Pv Pv).
  assert (P : on_grid (qmesh q) (fun x y z => 0 <= det3 (J x y z) * dot (v x y z) (v x y z))).
  { intros x y z X Y Z. assert (D := Dp x y z X Y Z). cbv beta in D. apply Rmult_le_pos; [lra|]. apply dot_nonneg. }
  split; [apply quad_nonneg; exact P|]. intros Z0. apply null2; [exact L|]. intros d x y z X Y Z.
  assert (Q := quad_null _ P Z0 x y z X Y Z). cbv beta in Q. assert (D := Dp x y z X Y Z). cbv beta in D.
  apply Rmult_integral in Q as [Q|Q]; [lra|]. rewrite <- (Pv x y z X Y Z d). unfold dot, csum. rewrite !(dot_null _ Q). ring.
Qed.
End Quad.
