(* Discretizing the field of a cochain on a 2D element gives the cochain. *)
From Coq Require Import Reals List Lia Lra Arith ZArith Bool.
From Verif Require Import TfiModel CtModel RingSum SpaceSpec SpaceProofs SpaceProofs2 SpaceProofs3 DiscModel DiscSpec DiscProofs DiscProofs2 DiscProofs3 Disc2Model Disc2Spec Disc2Proofs.
From Verif Require Import ReconModel ReconSpec ReconProofs ReconProofs2 ReconProofs3 ReconProofs4.
From Verif Require Import TriModel TriSpec TriProofs TdiscModel TdiscSpec TreconModel TreconSpec TreconProofs Rec2Model Rec2Spec Rec2Proofs.
Import ListNotations.
Open Scope R_scope.

Lemma quad2_prod g f0 f1 a b : quad2 g (fun x y => f0 x * f1 y) [a; b] = Q (hx g) (sx g) a f0 * Q (hy g) (sy g) b f1.
Proof.
  rewrite quad2_Q. set (B := Q (hy g) (sy g) b f1).
  transitivity (Q (hx g) (sx g) a (fun x => f0 x * B)); [|apply Q_scal]. apply Q_ext. intros x.
  transitivity (Q (hy g) (sy g) b (fun y => f1 y * f0 x)); [apply Q_ext; intros; ring|rewrite Q_scal; unfold B; ring].
Qed.
Lemma quad2_ext_in g h h' c : grid2_ok g -> in_square (fun x y => h x y = h' x y) ->
  Forall2 (fun n f => (if fst f : bool then S (snd f) else snd f) < length n)%nat [hx g; hy g] c -> quad2 g h c = quad2 g h' c.
Proof.
  intros G H F. unfold quad2. inversion F as [|? a ? ? Fa F1]; subst. inversion F1 as [|? b ? ? Fb F2]; subst. inversion F2; subst.
  assert (K : forall n r f, (forall x, In x n -> in_ref x) -> (forall x, In x (fst r) -> in_ref x) ->
    ((if fst f : bool then S (snd f) else snd f) < length n)%nat -> forall pw, In pw (factor_rule n r f) -> in_ref (fst pw)).
  { clear. intros n r [[|] i] Hn Hr L pw I; cbn [fst snd] in L; unfold factor_rule in I.
    - apply in_map_iff in I as ([q w] & <- & I). cbn [fst snd]. apply in_combine_l in I. specialize (Hr q I).
      assert (A := Hn _ (nth_In n 0 L)). assert (A' := Hn _ (nth_In n 0 (Nat.lt_trans _ _ _ (Nat.lt_succ_diag_r i) L))).
      unfold in_ref in *. split; nra.
    - destruct I as [<-|[]]. cbn [fst]. apply Hn. apply nth_In. exact L. }
  apply rsum_ext. intros u Hu. apply rsum_ext. intros v Hv. f_equal.
  apply H; [apply (K (hx g) (sx g) a)|apply (K (hy g) (sy g) b)]; try assumption; intros x Hx; apply G; tauto.
Qed.
Lemma quad2_scal g h a c : quad2 g (fun x y => a * h x y) c = a * quad2 g h c.
Proof.
  unfold quad2. destruct c as [|u [|v [|e c]]]; try ring. rewrite (Rmult_comm a), rsum_scal. apply rsum_ext. intros x _.
  rewrite rsum_scal. apply rsum_ext. intros y _. ring.
Qed.
Lemma quad2_zero g c : quad2 g (fun _ _ => 0) c = 0.
Proof. unfold quad2. destruct c as [|u [|v [|e c]]]; try reflexivity. apply rsum_zero'. intros x _. apply rsum_zero'. intros y _. ring. Qed.
Lemma quad2_sum g h h' c : quad2 g (fun x y => h x y + h' x y) c = quad2 g h c + quad2 g h' c.
Proof.
  unfold quad2. destruct c as [|u [|v [|e c]]]; try ring. rewrite <- rsum_plus. apply rsum_ext. intros x _. rewrite <- rsum_plus. apply rsum_ext. intros y _. ring.
Qed.
Lemma quad2_rsum {A} g (l : list A) (h : A -> R -> R -> R) c : quad2 g (fun x y => rsum l (fun a => h a x y)) c = rsum l (fun a => quad2 g (h a) c).
Proof.
  induction l as [|a l IH]; [apply quad2_zero|]. rewrite rsum_cons, <- IH. apply (quad2_sum g (h a) (fun x y => rsum l (fun b => h b x y))).
Qed.
Section Dual.
Variables (g : Grid2) (s : Space2).
Hypothesis B : basis2_of g s.
Hypothesis X : exact2_for g s.
Lemma dual2_cell e c : map fst e = map fst c -> Forall2 (fun n f => snd f < size n (fst f))%nat (deg2 s) e ->
  Forall2 (fun n f => snd f < size n (fst f))%nat (deg2 s) c -> quad2 g (fn2 s e) c = if cell_eqb e c then 1 else 0.
Proof.
  intros M He Hc. unfold deg2 in *.
  inversion He as [|? [a i] ? ? A1 E1]; subst. inversion E1 as [|? [b j] ? ? A2 E2]; subst. inversion E2; subst.
  inversion Hc as [|? [a' i'] ? ? C1 F1]; subst. inversion F1 as [|? [b' j'] ? ? C2 F2]; subst. inversion F2; subst.
  cbn in M. injection M as <- <-. cbn [fst snd] in *. destruct B as (B0 & B1). destruct X as (X0 & X1).
  unfold fn2. rewrite quad2_prod. rewrite (pair_factor _ _ _ B0 X0 a i i' A1 C1), (pair_factor _ _ _ B1 X1 b j j' A2 C2).
  cbn [cell_eqb]. destruct (factor_eqb (a, i) _), (factor_eqb (b, j) _); cbn [andb]; ring.
Qed.
Lemma dual2 ts sel c n c0 : NoDup (cells (deg2 s) ts) -> Forall (fun t => length t = 2%nat) ts ->
  length c = length (cells (deg2 s) ts) -> nth_error (cells (deg2 s) ts) n = Some c0 -> sel c0 = true ->
  (forall e, In e (cells (deg2 s) ts) -> sel e = true -> map fst e = map fst c0) -> quad2 g (expand2 s ts sel c) c0 = nth n c 0.
Proof.
  intros ND Ts Hl Hn S0 Sel.
  assert (K : forall e, In e (cells (deg2 s) ts) -> Forall2 (fun n f => snd f < size n (fst f))%nat (deg2 s) e).
  { intros e I. unfold cells in I. apply in_flat_map in I as (t & Ht & I). apply (In_cells_t' _ t); [|exact I]. rewrite Forall_forall in Ts. apply (Ts t Ht). }
  assert (I0 := nth_error_In _ _ Hn).
  unfold expand2. rewrite quad2_rsum. rewrite <- (pick _ ND c n c0 Hl Hn). apply rsum_ext. intros [e a] I. apply in_combine_l in I. cbn [fst snd].
  destruct (sel e) eqn:E.
  - rewrite quad2_scal. rewrite dual2_cell; [destruct (cell_eqb e c0); ring|apply (Sel e I E)|apply K; exact I|apply K; exact I0].
  - destruct (cell_eqb e c0) eqn:E'; [|apply quad2_zero]. apply cell_eqb_eq in E' as ->. congruence.
Qed.
Hypothesis G : grid2_ok g.
Lemma lens2 : length (hx g) = S (pdeg (z0 s)) /\ length (hy g) = S (pdeg (z1 s)).
Proof. destruct B as ((L0 & _) & (L1 & _)). auto. Qed.
Lemma in_range2 ts c : Forall (fun t => length t = 2%nat) ts -> In c (cells (deg2 s) ts) ->
  Forall2 (fun n f => (if fst f : bool then S (snd f) else snd f) < length n)%nat [hx g; hy g] c.
Proof.
  intros Ts I. unfold cells in I. apply in_flat_map in I as (t & Ht & I). rewrite Forall_forall in Ts.
  apply (In_cells_t' _ t) in I; [|apply (Ts t Ht)]. destruct lens2 as (L0 & L1). unfold deg2 in I.
  inversion I as [|? [a i] ? ? A1 E1]; subst. inversion E1 as [|? [b j] ? ? A2 E2]; subst. inversion E2; subst.
  cbn [fst snd] in *. repeat constructor; cbn [fst snd]; [destruct a|destruct b]; cbn [size] in *; lia.
Qed.
Lemma recover2 ts (W : cell -> R) (h : cell -> R -> R -> R) sel c : types_ok (deg2 s) ts -> Forall (fun t => length t = 2%nat) ts ->
  length c = length (cells (deg2 s) ts) ->
  (forall c0, In c0 (cells (deg2 s) ts) -> W c0 = quad2 g (h c0) c0) -> (forall c0, In c0 (cells (deg2 s) ts) -> sel c0 c0 = true) ->
  (forall c0 e, In c0 (cells (deg2 s) ts) -> In e (cells (deg2 s) ts) -> sel c0 e = true -> map fst e = map fst c0) ->
  (forall c0, In c0 (cells (deg2 s) ts) -> in_square (fun x y => h c0 x y = expand2 s ts (sel c0) c x y)) -> map W (cells (deg2 s) ts) = c.
Proof.
  intros T Ts Hl HW S0 Sel H. apply (list_nth_eq _ _ 0); [rewrite map_length; auto|]. intros n Hn. rewrite map_length in Hn.
  destruct (nth_error (cells (deg2 s) ts) n) as [c0|] eqn:E; [|apply nth_error_None in E; lia].
  assert (I := nth_error_In _ _ E). erewrite (nth_error_nth (map W _) n 0) by (rewrite nth_error_map, E; reflexivity).
  rewrite (HW c0 I). rewrite (quad2_ext_in g _ _ c0 G (H c0 I) (in_range2 ts c0 Ts I)).
  apply dual2; try assumption; [apply NoDup_cells; exact T|apply (S0 c0 I)|]. intros e Ie. apply Sel; assumption.
Qed.
Lemma cell_type2 p ts c : length p = 2%nat -> Forall (fun t : ctype => length t = 2%nat) ts -> In c (cells p ts) -> In (map fst c) ts.
Proof.
  intros L F I. unfold cells in I. apply in_flat_map in I as (t & Ht & I). apply In_cells_t in I as ->; [exact Ht|]. rewrite L. rewrite Forall_forall in F. apply (F t Ht).
Qed.
Theorem r2inverse0 F f c : length c = length (cells (deg2 s) nodes2) -> in_square (fun x y => through2 f F x y = r2hat0 s c x y) -> disc2_0 (hx g) (hy g) F f = c.
Proof.
  intros L H. destruct lens2 as (L0 & L1). rewrite (disc2_0_ok g _ _ L0 L1 F f).
  apply (recover2 nodes2 (int2_0 g F f) (fun _ => through2 f F) (fun _ _ => true) c); try assumption; try reflexivity; [apply nodes2_ok|repeat constructor| |].
  - intros c0 e I0 Ie _. apply cell_type2 in I0; [|reflexivity|repeat constructor]. apply cell_type2 in Ie; [|reflexivity|repeat constructor].
    destruct I0 as [<-|[]], Ie as [<-|[]]. reflexivity.
  - intros c0 _. exact H.
Qed.
Theorem r2inverse2 F J f c : length c = length (cells (deg2 s) faces2) -> in_square (fun x y => field2 s c J x y (through2 f F x y)) ->
  disc2_2 (hx g) (hy g) (pdeg (z0 s)) (pdeg (z1 s)) (sx g) (sy g) F J f = c.
Proof.
  intros L H. destruct lens2 as (L0 & L1). rewrite (disc2_2_ok g (pdeg (z0 s)) (pdeg (z1 s)) L0 L1).
  apply (recover2 faces2 (int2_2 g F J f) (fun _ x y => through2 f F x y * cross2 (mcol (J x y) false) (mcol (J x y) true)) (fun _ _ => true) c); try assumption; try reflexivity;
    [apply faces2_ok|repeat constructor| |].
  - intros c0 e I0 Ie _. apply cell_type2 in I0; [|reflexivity|repeat constructor]. apply cell_type2 in Ie; [|reflexivity|repeat constructor].
    destruct I0 as [<-|[]], Ie as [<-|[]]. reflexivity.
  - intros c0 _. exact H.
Qed.
Lemma edges2_ok o : types_ok (deg2 s) (edges2 o).
Proof. destruct o; [apply edges2o_ok|apply edges2i_ok]. Qed.
Lemma edges2_two o : Forall (fun t : ctype => length t = 2%nat) (edges2 o).
Proof. destruct o; repeat constructor. Qed.
Lemma sel_type o c0 e : In c0 (cells (deg2 s) (edges2 o)) -> In e (cells (deg2 s) (edges2 o)) -> Bool.eqb (along2 e) (along2 c0) = true -> map fst e = map fst c0.
Proof.
  intros I0 Ie E. apply cell_type2 in I0; [|reflexivity|apply edges2_two]. apply cell_type2 in Ie; [|reflexivity|apply edges2_two]. unfold along2 in E.
  destruct o; destruct I0 as [Q0|[Q0|[]]], Ie as [Q1|[Q1|[]]]; rewrite <- Q0, <- Q1 in *; (reflexivity || discriminate).
Qed.
Lemma eqb_self b : Bool.eqb b b = true.
Proof. destruct b; reflexivity. Qed.
Theorem r2inverse_inner F J orth v c : length c = length (cells (deg2 s) (edges2 Inner)) -> (orth = true -> forall x y, diagonal2 (J x y)) ->
  in_square (fun x y => field1 Inner s c J x y (through2 (Disc2Spec.value2 v) F x y)) ->
  disc2_inner (hx g) (hy g) (pdeg (z0 s)) (pdeg (z1 s)) (sx g) (sy g) F J orth v = c.
Proof.
  intros L D H. destruct lens2 as (L0 & L1). rewrite (disc2_inner_ok g _ _ L0 L1 F J orth v D).
  apply (recover2 (edges2 Inner) (int2_inner g F J v) (fun c0 => circ F J v (along2 c0)) (fun c0 e => Bool.eqb (along2 e) (along2 c0)) c); try assumption; try reflexivity;
    [apply edges2_ok|apply edges2_two| | |].
  - intros c0 _. apply eqb_self.
  - intros c0 e. apply sel_type.
  - intros c0 _ x y X0 Y0. exact (H x y X0 Y0 (along2 c0)).
Qed.
Theorem r2inverse_outer F J orth v c : length c = length (cells (deg2 s) (edges2 Outer)) -> (orth = true -> forall x y, diagonal2 (J x y)) ->
  in_square (fun x y => field1 Outer s c J x y (through2 (Disc2Spec.value2 v) F x y)) ->
  disc2_outer (hx g) (hy g) (pdeg (z0 s)) (pdeg (z1 s)) (sx g) (sy g) F J orth v = c.
Proof.
  intros L D H. destruct lens2 as (L0 & L1). rewrite (disc2_outer_ok g _ _ L0 L1 F J orth v D).
  apply (recover2 (edges2 Outer) (int2_outer g F J v) (fun c0 x y => IZR (orient_out c0) * flux F J v (along2 c0) x y) (fun c0 e => Bool.eqb (along2 e) (along2 c0)) c); try assumption; try reflexivity;
    [apply edges2_ok|apply edges2_two| | | |].
  - intros c0 _. symmetry. apply quad2_scal.
  - intros c0 _. apply eqb_self.
  - intros c0 e. apply sel_type.
  - intros c0 I0 x y X0 Y0. pose proof (H x y X0 Y0 (along2 c0)) as K. cbv iota in K. apply cell_type2 in I0; [|reflexivity|apply edges2_two]. etransitivity; [|exact K].
    assert (orient_out c0 = if along2 c0 then 1%Z else (-1)%Z) as -> by (unfold orient_out, along2; destruct I0 as [<-|[<-|[]]]; reflexivity). reflexivity.
Qed.
End Dual.
