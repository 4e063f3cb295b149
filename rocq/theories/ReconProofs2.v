(* Discretizing a reconstruction gives the cochain; reconstruction commutes with
   gradient, curl and divergence. *)
From Coq Require Import Reals List Lia Lra Arith ZArith Bool.
From Verif Require Import TfiModel TfiSpec CtModel CtSpec CtProofs RingSum SpaceModel SpaceSpec SpaceProofs SpaceProofs2 SpaceProofs3.
From Verif Require Import DiscModel DiscSpec DiscProofs DiscProofs2 DiscProofs3 ReconModel ReconSpec ReconProofs.
Import ListNotations.
Open Scope R_scope.

(* ---------- one axis ---------- *)
Lemma rsum_one n i (h : nat -> R) : (i < n)%nat -> (forall j, (j < n)%nat -> j <> i -> h j = 0) -> rsum (seq 0 n) h = h i.
Proof.
  intros Hi H. change (rsum (seq 0 n) h) with (bsum (K := RRing) (seq 0 n) h).
  apply (bsum_only RRing); [apply seq_NoDup|apply in_seq; lia|]. intros a Ha. apply in_seq in Ha. apply H. lia.
Qed.
Section Axis.
Variables (n : list R) (r : list R * list R) (P : Poly1).
Hypothesis B : basis_of n P.
Hypothesis X : exact_for n r P.
Lemma pair_node i j : (i <= pdeg P)%nat -> (j <= pdeg P)%nat -> Q n r (false, j) (factor_fn P (false, i)) = if (i =? j)%nat then 1 else 0.
Proof. intros Hi Hj. rewrite Q_pt. destruct B as (_ & K & _). apply K; assumption. Qed.
(* the coefficients of a primitive of e_i *)
Definition step (i k : nat) : R := if (k <=? i)%nat then -1 else 0.
Lemma step_diff i k : step i (S k) - step i k = if (k =? i)%nat then 1 else 0.
Proof.
  unfold step. destruct (Nat.leb_spec (S k) i); destruct (Nat.leb_spec k i); destruct (Nat.eqb_spec k i); try lia; ring.
Qed.
Lemma pair_edge i j : (i < pdeg P)%nat -> (j < pdeg P)%nat -> Q n r (true, j) (factor_fn P (true, i)) = if (i =? j)%nat then 1 else 0.
Proof.
  intros Hi Hj. destruct B as (L & K & D). unfold Q, factor_fn. cbn [fst snd].
  assert (V : forall m, (m <= pdeg P)%nat -> rsum (seq 0 (S (pdeg P))) (fun k => step i k * node_fn P k (nth m n 0)) = step i m).
  { intros m Hm. rewrite (rsum_one _ m); [|lia|].
    - rewrite K by lia. rewrite Nat.eqb_refl. ring.
    - intros k Hk N. rewrite K by lia. destruct (Nat.eqb_spec k m); [contradiction|ring]. }
  rewrite (X (step i) (edge_fn P i)).
  - rewrite !V by lia. rewrite step_diff. rewrite Nat.eqb_sym. reflexivity.
  - intros x. assert (E := D (step i) x). rewrite (rsum_one _ i) in E; [|exact Hi|].
    + rewrite step_diff, Nat.eqb_refl in E. rewrite Rmult_1_l in E. exact E.
    + intros k _ N. rewrite step_diff. destruct (Nat.eqb_spec k i); [contradiction|ring].
  - lia.
Qed.
Lemma pair_factor b i j : (i < size (pdeg P) b)%nat -> (j < size (pdeg P) b)%nat ->
  Q n r (b, j) (factor_fn P (b, i)) = if factor_eqb (b, i) (b, j) then 1 else 0.
Proof.
  unfold factor_eqb, size. cbn [fst snd]. destruct b; cbn [Bool.eqb andb]; intros Hi Hj; [apply pair_edge|apply pair_node]; lia.
Qed.
End Axis.

(* ---------- cells ---------- *)
Lemma Q_scal n r f h a : Q n r f (fun x => h x * a) = Q n r f h * a.
Proof. unfold Q. rewrite rsum_scal. apply rsum_ext. intros. ring. Qed.
Lemma cell_quad_prod g f0 f1 f2 a b d : cell_quad g (fun x y z => f0 x * f1 y * f2 z) [a; b; d] =
  Q (gx g) (rx g) a f0 * Q (gy g) (ry g) b f1 * Q (gz g) (rz g) d f2.
Proof.
  rewrite quad_Q. set (B := Q (gy g) (ry g) b f1). set (D := Q (gz g) (rz g) d f2).
  transitivity (Q (gx g) (rx g) a (fun x => f0 x * (B * D))); [|rewrite Q_scal; ring]. apply Q_ext. intros x.
  transitivity (Q (gy g) (ry g) b (fun y => f1 y * (f0 x * D))); [|rewrite Q_scal; unfold B; ring]. apply Q_ext. intros y.
  transitivity (Q (gz g) (rz g) d (fun z => f2 z * (f0 x * f1 y))); [apply Q_ext; intros; ring|rewrite Q_scal; unfold D; ring].
Qed.
Lemma cell_quad_ext g h h' c : grid_ok g -> in_element (fun x y z => h x y z = h' x y z) ->
  Forall2 (fun n f => (if fst f : bool then S (snd f) else snd f) < length n)%nat [gx g; gy g; gz g] c ->
  cell_quad g h c = cell_quad g h' c.
Proof.
  intros G H F. unfold cell_quad. inversion F as [|? a ? ? Fa F1]; subst. inversion F1 as [|? b ? ? Fb F2]; subst.
  inversion F2 as [|? d ? ? Fd F3]; subst. inversion F3; subst.
  assert (K : forall n r f, (forall x, In x n -> in_ref x) -> (forall x, In x (fst r) -> in_ref x) ->
    ((if fst f : bool then S (snd f) else snd f) < length n)%nat -> forall pw, In pw (factor_rule n r f) -> in_ref (fst pw)).
  { clear. intros n r [[|] i] Hn Hr L pw I; cbn [fst snd] in L; unfold factor_rule in I.
    - apply in_map_iff in I as ([q w] & <- & I). cbn [fst snd]. apply in_combine_l in I. specialize (Hr q I).
      assert (A := Hn _ (nth_In n 0 L)). assert (A' := Hn _ (nth_In n 0 (Nat.lt_trans _ _ _ (Nat.lt_succ_diag_r i) L))).
      unfold in_ref in *. split; nra.
    - destruct I as [<-|[]]. cbn [fst]. apply Hn. apply nth_In. exact L. }
  apply rsum_ext. intros u Hu. apply rsum_ext. intros v Hv. apply rsum_ext. intros w Hw. f_equal.
  apply H; [apply (K (gx g) (rx g) a)|apply (K (gy g) (ry g) b)|apply (K (gz g) (rz g) d)]; try assumption; intros x Hx; apply G; tauto.
Qed.
Lemma quad_scal g h a c : cell_quad g (fun x y z => a * h x y z) c = a * cell_quad g h c.
Proof.
  unfold cell_quad. destruct c as [|u [|v [|w [|e c]]]]; try ring. rewrite (Rmult_comm a), rsum_scal. apply rsum_ext. intros x _.
  rewrite rsum_scal. apply rsum_ext. intros y _. rewrite rsum_scal. apply rsum_ext. intros z _. ring.
Qed.
Lemma quad_zero g c : cell_quad g (fun _ _ _ => 0) c = 0.
Proof.
  unfold cell_quad. destruct c as [|u [|v [|w [|e c]]]]; try reflexivity. apply rsum_zero'. intros x _. apply rsum_zero'. intros y _.
  apply rsum_zero'. intros z _. ring.
Qed.
Lemma quad_rsum {A} g (l : list A) (h : A -> R -> R -> R -> R) c :
  cell_quad g (fun x y z => rsum l (fun a => h a x y z)) c = rsum l (fun a => cell_quad g (h a) c).
Proof.
  induction l as [|a l IH]; [apply quad_zero|]. rewrite rsum_cons, <- IH. apply (quad_plus g (h a) (fun x y z => rsum l (fun b => h b x y z))).
Qed.
Lemma In_cells_t' p t c : length t = length p -> In c (cells_t p t) -> Forall2 (fun n f => snd f < size n (fst f))%nat p c.
Proof.
  unfold cells_t. intros L H. apply in_map_iff in H as (i & <- & H). revert t i L H.
  induction p as [|n p IH]; intros t i L H; destruct t as [|b t]; try discriminate.
  - cbn in H. destruct H as [<-|[]]. constructor.
  - cbn [sizes grid] in H. apply in_flat_map in H as (q & Hq & H). apply in_map_iff in H as (k & <- & H). apply in_seq in H.
    cbn [combine]. constructor; [cbn [fst snd]; lia|]. apply IH; [|exact Hq]. cbn in L. lia.
Qed.
Section Dual.
Variables (g : Grid) (s : Space3).
Hypothesis B : basis3_of g s.
Hypothesis X : rules_exact g s.
Lemma dual_cell e c : map fst e = map fst c -> Forall2 (fun n f => snd f < size n (fst f))%nat (degrees s) e ->
  Forall2 (fun n f => snd f < size n (fst f))%nat (degrees s) c -> cell_quad g (cell_fn s e) c = if cell_eqb e c then 1 else 0.
Proof.
  intros M He Hc. unfold degrees in *.
  inversion He as [|? [a i] ? ? A1 E1]; subst. inversion E1 as [|? [b j] ? ? A2 E2]; subst. inversion E2 as [|? [d k] ? ? A3 E3]; subst. inversion E3; subst.
  inversion Hc as [|? [a' i'] ? ? C1 F1]; subst. inversion F1 as [|? [b' j'] ? ? C2 F2]; subst. inversion F2 as [|? [d' k'] ? ? C3 F3]; subst. inversion F3; subst.
  cbn in M. injection M as <- <- <-. cbn [fst snd] in *. destruct B as (B0 & B1 & B2). destruct X as (X0 & X1 & X2).
  unfold cell_fn. rewrite cell_quad_prod.
  rewrite (pair_factor _ _ _ B0 X0 a i i' A1 C1), (pair_factor _ _ _ B1 X1 b j j' A2 C2), (pair_factor _ _ _ B2 X2 d k k' A3 C3).
  cbn [cell_eqb]. destruct (factor_eqb (a, i) _), (factor_eqb (b, j) _), (factor_eqb (d, k) _); cbn [andb]; ring.
Qed.
Lemma pick (L : list cell) : NoDup L -> forall c n c0, length c = length L -> nth_error L n = Some c0 ->
  rsum (combine L c) (fun q => if cell_eqb (fst q) c0 then snd q else 0) = nth n c 0.
Proof.
  intros ND. induction ND as [|e L N ND IH]; intros c n c0 Hl Hn; [destruct n; discriminate|].
  destruct c as [|a c]; [discriminate|]. cbn [combine]. rewrite rsum_cons. cbn [fst snd]. destruct n as [|n].
  - cbn in Hn. injection Hn as ->. rewrite (proj2 (cell_eqb_eq _ _) eq_refl). cbn [nth]. rewrite rsum_zero'; [ring|].
    intros [x y] I. cbn [fst snd]. destruct (cell_eqb x c0) eqn:E; [|reflexivity]. apply cell_eqb_eq in E as ->. apply in_combine_l in I. contradiction.
  - cbn in Hn. destruct (cell_eqb e c0) eqn:E.
    + apply cell_eqb_eq in E as ->. exfalso. apply N. eapply nth_error_In. exact Hn.
    + cbn [nth]. rewrite (IH c n c0); [ring| |exact Hn]. cbn in Hl. lia.
Qed.
Lemma dual ts sel c n c0 : NoDup (cells (degrees s) ts) -> Forall (fun t => length t = 3%nat) ts ->
  length c = length (cells (degrees s) ts) -> nth_error (cells (degrees s) ts) n = Some c0 -> sel c0 = true ->
  (forall e, In e (cells (degrees s) ts) -> sel e = true -> map fst e = map fst c0) ->
  cell_quad g (expand s ts sel c) c0 = nth n c 0.
Proof.
  intros ND Ts Hl Hn S0 Sel.
  assert (K : forall e, In e (cells (degrees s) ts) -> Forall2 (fun n f => snd f < size n (fst f))%nat (degrees s) e).
  { intros e I. unfold cells in I. apply in_flat_map in I as (t & Ht & I). apply (In_cells_t' _ t); [|exact I].
    rewrite Forall_forall in Ts. apply (Ts t Ht). }
  assert (I0 := nth_error_In _ _ Hn).
  unfold expand. rewrite quad_rsum. rewrite <- (pick _ ND c n c0 Hl Hn). apply rsum_ext. intros [e a] I. apply in_combine_l in I. cbn [fst snd].
  destruct (sel e) eqn:E.
  - rewrite quad_scal. rewrite dual_cell; [destruct (cell_eqb e c0); ring|apply (Sel e I E)|apply K; exact I|apply K; exact I0].
  - destruct (cell_eqb e c0) eqn:E'; [|apply quad_zero]. apply cell_eqb_eq in E' as ->. congruence.
Qed.
End Dual.
Lemma list_nth_eq {A} (l m : list A) d : length l = length m -> (forall n, (n < length l)%nat -> nth n l d = nth n m d) -> l = m.
Proof. intros L H. apply (nth_ext _ _ d d L H). Qed.
Section DiscRecon.
Variables (g : Grid) (s : Space3).
Hypothesis G : grid_ok g.
Hypothesis B : basis3_of g s.
Hypothesis X : rules_exact g s.
Lemma lens : length (gx g) = S (pdeg (s0 s)) /\ length (gy g) = S (pdeg (s1 s)) /\ length (gz g) = S (pdeg (s2 s)).
Proof. destruct B as ((L0 & _) & (L1 & _) & (L2 & _)). auto. Qed.
Lemma in_range ts c : Forall (fun t => length t = 3%nat) ts -> In c (cells (degrees s) ts) ->
  Forall2 (fun n f => (if fst f : bool then S (snd f) else snd f) < length n)%nat [gx g; gy g; gz g] c.
Proof.
  intros Ts I. unfold cells in I. apply in_flat_map in I as (t & Ht & I). rewrite Forall_forall in Ts.
  apply (In_cells_t' _ t) in I; [|apply (Ts t Ht)]. destruct lens as (L0 & L1 & L2). unfold degrees in I.
  inversion I as [|? [a i] ? ? A1 E1]; subst. inversion E1 as [|? [b j] ? ? A2 E2]; subst. inversion E2 as [|? [d k] ? ? A3 E3]; subst. inversion E3; subst.
  cbn [fst snd] in *. repeat constructor; cbn [fst snd]; [destruct a|destruct b|destruct d]; cbn [size] in *; lia.
Qed.
Lemma recover ts (W : cell -> R) (h : cell -> R -> R -> R -> R) sel c : types_ok (degrees s) ts -> Forall (fun t => length t = 3%nat) ts ->
  length c = length (cells (degrees s) ts) ->
  (forall c0, In c0 (cells (degrees s) ts) -> W c0 = cell_quad g (h c0) c0) ->
  (forall c0, In c0 (cells (degrees s) ts) -> sel c0 c0 = true) ->
  (forall c0 e, In c0 (cells (degrees s) ts) -> In e (cells (degrees s) ts) -> sel c0 e = true -> map fst e = map fst c0) ->
  (forall c0, In c0 (cells (degrees s) ts) -> in_element (fun x y z => h c0 x y z = expand s ts (sel c0) c x y z)) ->
  map W (cells (degrees s) ts) = c.
Proof.
  intros T Ts Hl HW S0 Sel H. apply (list_nth_eq _ _ 0); [rewrite map_length; auto|]. intros n Hn. rewrite map_length in Hn.
  destruct (nth_error (cells (degrees s) ts) n) as [c0|] eqn:E; [|apply nth_error_None in E; lia].
  assert (I := nth_error_In _ _ E).
  erewrite (nth_error_nth (map W _) n 0) by (rewrite nth_error_map, E; reflexivity).
  rewrite (HW c0 I). rewrite (cell_quad_ext g _ _ c0 G (H c0 I) (in_range ts c0 Ts I)).
  apply dual; try assumption; [apply NoDup_cells; exact T|apply (S0 c0 I)|]. intros e Ie. apply Sel; assumption.
Qed.
Lemma ty3 t ts : In t ts -> Forall (fun t : ctype => length t = 3%nat) ts -> length t = 3%nat.
Proof. intros I F. rewrite Forall_forall in F. apply F. exact I. Qed.
Lemma cell_type p ts c : length p = 3%nat -> Forall (fun t : ctype => length t = 3%nat) ts -> In c (cells p ts) -> In (map fst c) ts.
Proof.
  intros L F I. unfold cells in I. apply in_flat_map in I as (t & Ht & I). apply In_cells_t in I as ->; [exact Ht|]. rewrite L. apply (ty3 t ts Ht F).
Qed.
Lemma ceqb_eq a b : ceqb a b = true <-> a = b.
Proof. destruct a, b; split; (reflexivity || discriminate). Qed.
Ltac F3 := repeat constructor.
Theorem disc_recon0 F f c : length c = length (cells (degrees s) nodes3) ->
  in_element (fun x y z => through f F x y z = hat0 s c x y z) -> disc0 (gx g) (gy g) (gz g) F f = c.
Proof.
  intros L H. destruct lens as (L0 & L1 & L2). rewrite (disc0_ok g _ _ _ F f L0 L1 L2).
  apply (recover nodes3 (int0 g F f) (fun _ => through f F) (fun _ _ => true) c); try assumption; try reflexivity; [apply nodes3_ok|F3| |].
  - intros c0 e I0 Ie _. apply cell_type in I0; [|reflexivity|F3]. apply cell_type in Ie; [|reflexivity|F3].
    destruct I0 as [<-|[]], Ie as [<-|[]]. reflexivity.
  - intros c0 _. exact H.
Qed.
Theorem disc_recon3 F J f c : length c = length (cells (degrees s) volumes3) ->
  in_element (fun x y z => pulls3 (J x y z) (through f F x y z) (hat3 s c x y z)) ->
  disc3 (gx g) (gy g) (gz g) (pdeg (s0 s)) (pdeg (s1 s)) (pdeg (s2 s)) (rx g) (ry g) (rz g) F J f = c.
Proof.
  intros L H. destruct lens as (L0 & L1 & L2). rewrite (disc3_ok g).
  apply (recover volumes3 (int3 g F J f) (fun _ => pull3 F J f) (fun _ _ => true) c); try assumption; try reflexivity; [apply volumes3_ok|F3| |].
  - intros c0 e I0 Ie _. apply cell_type in I0; [|reflexivity|F3]. apply cell_type in Ie; [|reflexivity|F3].
    destruct I0 as [<-|[]], Ie as [<-|[]]. reflexivity.
  - intros c0 _. exact H.
Qed.
Theorem disc_recon1 F J orth v c : length c = length (cells (degrees s) edges3) -> (orth = true -> forall x y z, diagonal (J x y z)) ->
  in_element (fun x y z => pulls1 (J x y z) (through (value v) F x y z) (fun d => hat1 s c d x y z)) ->
  disc1 (gx g) (gy g) (gz g) (pdeg (s0 s)) (pdeg (s1 s)) (pdeg (s2 s)) (rx g) (ry g) (rz g) F J orth v = c.
Proof.
  intros L D H. destruct lens as (L0 & L1 & L2). rewrite (disc1_ok g _ _ _ F J orth v L0 L1 L2 D).
  apply (recover edges3 (int1 g F J v) (fun c0 => pull1 F J v (along c0)) (fun c0 e => ceqb (along e) (along c0)) c); try assumption; try reflexivity;
    [apply edges3_ok|F3| | |].
  - intros c0 _. apply ceqb_eq. reflexivity.
  - intros c0 e I0 Ie E. apply ceqb_eq in E. unfold along in E. apply cell_type in I0; [|reflexivity|F3]. apply cell_type in Ie; [|reflexivity|F3].
    destruct I0 as [Q0|[Q0|[Q0|[]]]], Ie as [Q1|[Q1|[Q1|[]]]]; rewrite <- Q0, <- Q1 in *; (reflexivity || discriminate).
  - intros c0 _ x y z X0 Y0 Z0. apply (H x y z X0 Y0 Z0 (along c0)).
Qed.
Theorem disc_recon2 F J orth v c : length c = length (cells (degrees s) faces3) -> (orth = true -> forall x y z, diagonal (J x y z)) ->
  in_element (fun x y z => pulls2 (J x y z) (through (value v) F x y z) (fun d => hat2 s c d x y z)) ->
  disc2 (gx g) (gy g) (gz g) (pdeg (s0 s)) (pdeg (s1 s)) (pdeg (s2 s)) (rx g) (ry g) (rz g) F J orth v = c.
Proof.
  intros L D H. destruct lens as (L0 & L1 & L2). rewrite (disc2_ok g _ _ _ F J orth v D).
  apply (recover faces3 (int2 g F J v) (fun c0 => pull2 F J v (normal c0)) (fun c0 e => ceqb (normal e) (normal c0)) c); try assumption; try reflexivity;
    [apply faces3_ok|F3| | |].
  - intros c0 _. apply ceqb_eq. reflexivity.
  - intros c0 e I0 Ie E. apply ceqb_eq in E. unfold normal in E. apply cell_type in I0; [|reflexivity|F3]. apply cell_type in Ie; [|reflexivity|F3].
    destruct I0 as [Q0|[Q0|[Q0|[]]]], Ie as [Q1|[Q1|[Q1|[]]]]; rewrite <- Q0, <- Q1 in *; (reflexivity || discriminate).
  - intros c0 _ x y z X0 Y0 Z0. apply (H x y z X0 Y0 Z0 (normal c0)).
Qed.
End DiscRecon.
