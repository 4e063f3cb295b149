(* Discretization inverts reconstruction; derivatives of reconstructed forms. *)
From Coq Require Import Reals List Lia Lra Arith ZArith Bool Ranalysis5.
From Verif Require Import TfiModel TfiProofs CtModel RingSum SpaceSpec DiscModel DiscSpec DiscProofs DiscProofs2 DiscProofs3 Disc2Model Disc2Spec Disc2Proofs.
From Verif Require Import ReconModel ReconSpec ReconProofs ReconProofs2 ReconProofs3.
From Verif Require Import TriModel TriSpec TriProofs TriProofs6 TdiscModel TdiscSpec TdiscProofs TdiscProofs2 TdiscProofs3 TreconModel TreconSpec TreconProofs.
Import ListNotations.
Open Scope R_scope.

(* ---------- sums of basis functions are one ---------- *)
Lemma unity_R n P : basis_of n P -> forall x, rsum (seq 0 (S (pdeg P))) (fun i => node_fn P i x) = 1.
Proof.
  intros (L & K & D). set (f := fun x => rsum (seq 0 (S (pdeg P))) (fun i => 1 * node_fn P i x)).
  assert (D0 : forall x, derivable_pt_lim f x 0).
  { intros x. specialize (D (fun _ => 1) x). cbv beta in D. rewrite (rsum_zero' (seq 0 (pdeg P)) (fun i => (1 - 1) * edge_fn P i x)) in D by (intros; ring). exact D. }
  set (pr := fun x => exist (derivable_pt_abs f x) 0 (D0 x) : derivable_pt f x).
  assert (C : constant f) by (apply (null_derivative_1 f pr); intros x; reflexivity).
  assert (F0 : f (nth 0 n 0) = 1).
  { unfold f. rewrite (rsum_one (S (pdeg P)) 0); [rewrite K by lia; cbn; ring|lia|]. intros j Hj Hne. rewrite K by lia. destruct (Nat.eqb_spec j 0); [lia|ring]. }
  intros x. transitivity (f x); [unfold f; apply rsum_ext; intros; ring|]. rewrite <- F0. apply C.
Qed.
(* the values at the nodes *)
Lemma that0_node n P c i j : basis_of n P -> (i <= pdeg P)%nat -> (j <= pdeg P)%nat -> that0 P c (nth i n 0) (nth j n 0) = node_val (pdeg P) c i j.
Proof.
  intros (L & K & _) Hi Hj. unfold that0, tsum2. cbn [size]. rewrite (rsum_one _ j); [|lia|].
  - rewrite (rsum_one _ i); [|lia|].
    + unfold factor_fn. cbn [fst snd]. rewrite !K by lia. rewrite !Nat.eqb_refl. ring.
    + intros i' Hi' Ne. unfold factor_fn. cbn [fst snd]. rewrite (K i' i) by lia. destruct (Nat.eqb_spec i' i); [lia|ring].
  - intros j' Hj' Ne. apply rsum_zero'. intros i' Hi'. unfold factor_fn. cbn [fst snd]. rewrite (K j' j) by lia. destruct (Nat.eqb_spec j' j); [lia|ring].
Qed.
(* one value at the vertex *)
Theorem that0_vertex n P c x : basis_of n P -> that0 P c x (nth 0 n 0) = nth 0 c 0.
Proof.
  intros B. pose proof B as (L & K & _). unfold that0, tsum2. cbn [size]. rewrite (rsum_one _ 0); [|lia|].
  - transitivity (rsum (seq 0 (S (pdeg P))) (fun i => node_fn P i x) * nth 0 c 0).
    + rewrite rsum_scal. apply rsum_ext. intros i _. unfold factor_fn, node_val. cbn [fst snd node_at dofn]. rewrite K by lia. cbn. ring.
    + rewrite (unity_R n P B). ring.
  - intros j' Hj' Ne. apply rsum_zero'. intros i' Hi'. unfold factor_fn. cbn [fst snd]. rewrite (K j' 0%nat) by lia. destruct (Nat.eqb_spec j' 0); [lia|ring].
Qed.

(* ---------- duality of the basis functions and the cells ---------- *)
Lemma Q_rsum {A} n r f (l : list A) (h : A -> R -> R) : Q n r f (fun x => rsum l (fun a => h a x)) = rsum l (fun a => Q n r f (h a)).
Proof. unfold Q. rewrite (rsum_ext (factor_rule n r f) _ (fun pw => rsum l (fun a => h a (fst pw) * snd pw))); [apply rsum_swap|]. intros pw _. rewrite rsum_scal. reflexivity. Qed.
Lemma dual2 n P r0 r1 a b W i j : basis_of n P -> exact_for n r0 P -> exact_for n r1 P -> (i < size (pdeg P) a)%nat -> (j < size (pdeg P) b)%nat ->
  quad2 (mkGrid2 n n r0 r1) (tsum2 P a b W) [(a, i); (b, j)] = W i j.
Proof.
  intros B X0 X1 Hi Hj. rewrite quad2_Q. cbn [hx hy sx sy].
  transitivity (rsum (seq 0 (size (pdeg P) b)) (fun j' => rsum (seq 0 (size (pdeg P) a)) (fun i' =>
    W i' j' * (Q n r0 (a, i) (factor_fn P (a, i')) * Q n r1 (b, j) (factor_fn P (b, j')))))).
  - rewrite (Q_ext n r0 (a, i) _ (fun x => rsum (seq 0 (size (pdeg P) b)) (fun j' => rsum (seq 0 (size (pdeg P) a)) (fun i' =>
      factor_fn P (a, i') x * (W i' j' * Q n r1 (b, j) (factor_fn P (b, j'))))))).
    + rewrite Q_rsum. apply rsum_ext. intros j' _. rewrite Q_rsum. apply rsum_ext. intros i' _. rewrite Q_scal. ring.
    + intros x. unfold tsum2. rewrite Q_rsum. apply rsum_ext. intros j' _. rewrite Q_rsum. apply rsum_ext. intros i' _.
      rewrite (Q_ext n r1 (b, j) _ (fun y => factor_fn P (b, j') y * (W i' j' * factor_fn P (a, i') x))) by (intros; ring). rewrite Q_scal. ring.
  - rewrite (rsum_one _ j); [|exact Hj|].
    + rewrite (rsum_one _ i); [|exact Hi|].
      * rewrite !(pair_factor n _ P B) by assumption. unfold factor_eqb. cbn [fst snd]. rewrite !Nat.eqb_refl, !Bool.eqb_reflx. cbn [andb]. ring.
      * intros i' Hi' Ne. rewrite (pair_factor n r0 P B X0) by assumption. unfold factor_eqb. cbn [fst snd]. rewrite Bool.eqb_reflx. destruct (Nat.eqb_spec i' i); [lia|]. cbn [andb]. ring.
    + intros j' Hj' Ne. apply rsum_zero'. intros i' _. rewrite (pair_factor n r1 P B X1) by assumption. unfold factor_eqb. cbn [fst snd]. rewrite Bool.eqb_reflx.
      destruct (Nat.eqb_spec j' j); [lia|]. cbn [andb]. ring.
Qed.
(* where the rules take points *)
Lemma rule_pts n r (f : bool * nat) a : nodes_ok n -> points_open r -> ((if fst f : bool then S (snd f) else snd f) < length n)%nat -> In a (factor_rule n r f) ->
  in_ref (fst a) /\ (f <> (false, 0%nat) -> -1 < fst a).
Proof.
  intros (N0 & N1 & N2) R L I. destruct f as [[] i]; cbn [fst snd] in L; cbn [factor_rule] in I.
  - apply in_map_iff in I as ([q w] & <- & I). apply in_combine_l in I. specialize (R q I). destruct R as [R0 R1]. cbn [fst snd].
    assert (A : in_ref (nth i n 0)) by (apply N1, nth_In; lia). assert (B : in_ref (nth (S i) n 0)) by (apply N1, nth_In; exact L).
    assert (C : -1 < nth (S i) n 0) by (apply N2; lia). unfold in_ref in *. set (u := nth i n 0) in *. set (w' := nth (S i) n 0) in *.
    assert (0 <= (1 - q) * (u + 1)) by (apply Rmult_le_pos; lra). assert (0 < (1 + q) * (w' + 1)) by (apply Rmult_lt_0_compat; lra).
    assert (0 <= (1 - q) * (1 - u)) by (apply Rmult_le_pos; lra). assert (0 <= (1 + q) * (1 - w')) by (apply Rmult_le_pos; lra).
    repeat split; try intros _; lra.
  - destruct I as [<-|[]]. cbn [fst]. split; [apply N1, nth_In; exact L|]. intros Ne. apply N2. destruct i; [congruence|lia].
Qed.
Lemma quad2_off n r0 r1 h h' fx fy : nodes_ok n -> points_open r0 -> points_open r1 ->
  ((if fst fx : bool then S (snd fx) else snd fx) < length n)%nat -> ((if fst fy : bool then S (snd fy) else snd fy) < length n)%nat -> fy <> (false, 0%nat) ->
  off_vertex (fun x y => h x y = h' x y) -> quad2 (mkGrid2 n n r0 r1) h [fx; fy] = quad2 (mkGrid2 n n r0 r1) h' [fx; fy].
Proof.
  intros N R0 R1 Lx Ly Ne H. unfold quad2. cbn [hx hy sx sy]. apply rsum_ext. intros a A. apply rsum_ext. intros b B.
  destruct (rule_pts n r0 fx a N R0 Lx A) as [A1 _]. destruct (rule_pts n r1 fy b N R1 Ly B) as [B1 B2]. rewrite H; [reflexivity|exact A1|].
  split; [apply B2; exact Ne|apply B1].
Qed.
Section Inverse.
Variables (n : list R) (P : Poly1) (r0 r1 : list R * list R).
Hypothesis B : basis_of n P.
Hypothesis N : nodes_ok n.
Let p := pdeg P.
Let Hn : length n = S p := proj1 B.
Let H0 : nth 0 n 0 = -1 := proj1 N.
Theorem tdisc_recon0 a b d f c : length c = tnb0 p ->
  (forall x y, in_ref x -> in_ref y -> through2 f (tct_mapping a b d) x y = that0 P c x y) -> tdisc0 p n (tct_mapping a b d) f = c.
Proof.
  intros L H. apply (list_nth_eq _ _ 0); rewrite (tdisc0_len p n Hn); [lia|]. intros k Hk.
  destruct (numbers_node p) as (_ & _ & SN). destruct (SN k Hk) as (d' & Hd & Ed). replace k with (Z.to_nat (dofn p d')) by lia.
  rewrite (tdisc0_at p n Hn) by assumption.
  assert (V : forall i j, (i <= p)%nat -> (j <= p)%nat -> through2 f (tct_mapping a b d) (nth i n 0) (nth j n 0) = node_val p c i j).
  { intros i j Hi Hj. rewrite H; [apply (that0_node n P); assumption| |]; apply N, nth_In; lia. }
  destruct d' as [|i j]; cbn [node_pos fst snd]; [apply (V 0%nat 0%nat); lia|]. cbn [node_ok] in Hd. rewrite V by lia.
  destruct j as [|j]; [lia|]. reflexivity.
Qed.
Hypotheses (X0 : exact_for n r0 P) (X1 : exact_for n r1 P).
Hypotheses (O0 : points_open r0) (O1 : points_open r1).
Theorem tdisc_recon1 o M e F J v c : length c = tnb1 p ->
  off_vertex (fun x y => tpulls1 o (J x y) (through2 (Disc2Spec.value2 v) F x y) (fun d => that1 o P M e c d x y)) ->
  tdisc1 o p n r0 r1 M e F J v = c.
Proof.
  intros L H. apply (list_nth_eq _ _ 0); rewrite (tdisc1_len p n r0 r1 Hn); [lia|]. intros k Hk.
  destruct (numbers_edge o p) as (_ & _ & SE). destruct (SE k Hk) as (k' & Hd & Ed). fold (dofe o p k') in Ed. replace k with (Z.to_nat (dofe o p k')) by lia.
  rewrite (tdisc1_at p n r0 r1 Hn) by assumption.
  assert (V : int_edge o (mkGrid2 n n r0 r1) F J v k' = edge_val o p M e c k').
  { destruct k' as [i j|i j]; cbn [edge_ok] in Hd.
    - transitivity (quad2 (mkGrid2 n n r0 r1) (that1 o P M e c false) [(true, i); (false, j)]).
      2:{ unfold that1. rewrite (dual2 n P r0 r1 true false) by (try assumption; cbn [size]; fold p; lia). reflexivity. }
      rewrite <- (quad2_off n r0 r1 (match o with Inner => circ F J v false | Outer => fun x y => IZR (-1) * flux F J v false x y end)); try assumption; cbn [fst snd]; try lia; try (intros E; injection E; lia).
      + destruct o; cbn [int_edge]; unfold int2_outer, int2_inner; cbn [edge_cell along2 map fst orient_out]; [|reflexivity].
        symmetry. rewrite !quad2_Q, (Q_ext _ _ _ _ (fun x => Q (hy (mkGrid2 n n r0 r1)) (sy (mkGrid2 n n r0 r1)) (false, j) (flux F J v false x) * IZR (-1))); [rewrite Q_scal; apply Rmult_comm|].
        intros x. rewrite <- Q_scal. apply Q_ext. intros y. apply Rmult_comm.
      + intros x y Hx Hy. specialize (H x y Hx Hy false). destruct o; exact H.
    - transitivity (quad2 (mkGrid2 n n r0 r1) (that1 o P M e c true) [(false, i); (true, j)]).
      2:{ unfold that1. rewrite (dual2 n P r0 r1 false true) by (try assumption; cbn [size]; fold p; lia). reflexivity. }
      rewrite <- (quad2_off n r0 r1 (match o with Inner => circ F J v true | Outer => flux F J v true end)); try assumption; cbn [fst snd]; try lia; try discriminate.
      + destruct o; cbn [int_edge]; unfold int2_outer, int2_inner; cbn [edge_cell along2 map fst orient_out]; [apply Rmult_1_l|reflexivity].
      + intros x y Hx Hy. specialize (H x y Hx Hy true). destruct o; [rewrite <- H; symmetry; apply Rmult_1_l|exact H]. }
  rewrite V. unfold edge_val. destruct k' as [i [|j]|i j]; [cbn [edge_ok] in Hd; lia| |];
    rewrite <- Rmult_assoc, <- mult_IZR, transition_sq; apply Rmult_1_l.
Qed.
Theorem tdisc_recon2 F J f c : length c = tnb2 p ->
  off_vertex (fun x y => tpulls2 (J x y) (through2 f F x y) (that2 P c x y)) -> tdisc2 p n r0 r1 F J f = c.
Proof.
  intros L H. apply (list_nth_eq _ _ 0); rewrite (tdisc2_len p n r0 r1); [lia|]. intros k Hk.
  destruct (numbers_face p) as (_ & _ & SF). destruct (SF k Hk) as ([i j] & [Hi Hj] & Ed). cbn [fst snd] in *. replace k with (Z.to_nat (tln2 p i j)) by lia.
  rewrite (tdisc2_at p n r0 r1 Hn) by assumption. unfold int2_2, face_cell.
  rewrite (quad2_off n r0 r1 _ (that2 P c)); try assumption; cbn [fst snd]; try lia; try discriminate.
  - unfold that2. rewrite (dual2 n P r0 r1 true true) by (try assumption; cbn [size]; fold p; lia). reflexivity.
Qed.
End Inverse.

(* ---------- derivatives ---------- *)
Lemma lim_tsum2_x n P b W x y : basis_of n P -> derivable_pt_lim (fun t => tsum2 P false b W t y) x (tsum2 P true b (fun i j => W (S i) j - W i j) x y).
Proof.
  intros (_ & _ & D). unfold tsum2. apply (lim_rsum _ (fun j t => _)). intros j _.
  specialize (D (fun i => W i j * factor_fn P (b, j) y) x).
  match goal with |- derivable_pt_lim _ _ ?l => match type of D with derivable_pt_lim _ _ ?l' => replace l with l' end end.
  - eapply lim_ext'; [|exact D]. intros t. apply rsum_ext. intros i _. unfold factor_fn at 2. cbn [fst snd]. ring.
  - apply rsum_ext. intros i _. unfold factor_fn at 3. cbn [fst snd]. ring.
Qed.
Lemma lim_tsum2_y n P a W x y : basis_of n P -> derivable_pt_lim (fun t => tsum2 P a false W x t) y (tsum2 P a true (fun i j => W i (S j) - W i j) x y).
Proof.
  intros (_ & _ & D). unfold tsum2.
  specialize (D (fun j => rsum (seq 0 (size (pdeg P) a)) (fun i => W i j * factor_fn P (a, i) x)) y).
  match goal with |- derivable_pt_lim _ _ ?l => match type of D with derivable_pt_lim _ _ ?l' => replace l with l' end end.
  - eapply lim_ext'; [|exact D]. intros t. apply rsum_ext. intros j _. rewrite rsum_scal_r. apply rsum_ext. intros i _. unfold factor_fn at 3. cbn [fst snd]. ring.
  - apply rsum_ext. intros j _. rewrite rsum_minus', rsum_scal_r. apply rsum_ext. intros i _. unfold factor_fn at 4. cbn [fst snd]. ring.
Qed.
Lemma tsum2_ext P a b W W' x y : (forall i j, (i < size (pdeg P) a)%nat -> (j < size (pdeg P) b)%nat -> W i j = W' i j) -> tsum2 P a b W x y = tsum2 P a b W' x y.
Proof. intros H. unfold tsum2. apply rsum_ext. intros j Hj. apply rsum_ext. intros i Hi. apply in_seq in Hi, Hj. rewrite H by lia. reflexivity. Qed.
Lemma tsum2_scal P a b W k x y : tsum2 P a b (fun i j => k * W i j) x y = k * tsum2 P a b W x y.
Proof. unfold tsum2. rewrite (Rmult_comm k), rsum_scal. apply rsum_ext. intros j _. rewrite rsum_scal. apply rsum_ext. intros. ring. Qed.
Lemma tsum2_plus P a b W W' x y : tsum2 P a b (fun i j => W i j + W' i j) x y = tsum2 P a b W x y + tsum2 P a b W' x y.
Proof. unfold tsum2. rewrite <- rsum_plus. apply rsum_ext. intros j _. rewrite <- rsum_plus. apply rsum_ext. intros. ring. Qed.
Section Derivatives.
Variables (n : list R) (P : Poly1) (F : (R -> R -> R) * (R -> R -> R)) (J : R -> R -> (R * R) * (R * R)).
Hypothesis B : basis_of n P.
Hypothesis HJ : jacobian2_of F J.
Let p := pdeg P.
Lemma ev0 o M e c c1 k : length c = tnb0 p -> length c1 = tnb1 p -> mat_times (incidence0 o p M e) c c1 -> edge_ok p k ->
  edge_val o p M e c1 k = IZR (sgn0 o k) * (nth (nn p (stop k)) c 0 - nth (nn p (start k)) c 0).
Proof.
  intros L L1 E Hk. assert (V : IZR (transition o p M e (ne o p k)) * nth (ne o p k) c1 0 = IZR (sgn0 o k) * (nth (nn p (stop k)) c 0 - nth (nn p (start k)) c 0)).
  { rewrite (E (ne o p k)).
    2:{ rewrite L1. pose proof (proj1 (numbers_edge o p) k Hk) as B1. fold (dofe o p k) in B1. unfold ne. lia. }
    rewrite apply_rs, L. unfold incidence0.
    rewrite (rs_ext _ _ (fun q => IZR (transition o p M e (ne o p k)) * (IZR (tE0 o p (ne o p k) q) * nth q c 0))) by (intros q _; rewrite mult_IZR; ring).
    rewrite rs_mul. unfold ne at 3. rewrite E0_row_R by exact Hk. rewrite <- Rmult_assoc, <- mult_IZR, transition_sq. apply Rmult_1_l. }
  destruct k as [i [|j]|i j]; [cbn [edge_ok] in Hk; lia| |]; exact V.
Qed.
Lemma that1_d0 o M e c c1 d x y : length c = tnb0 p -> length c1 = tnb1 p -> mat_times (incidence0 o p M e) c c1 ->
  that1 o P M e c1 d x y = IZR (match o with Outer => if d then 1 else -1 | Inner => 1 end) *
    (if d then tsum2 P false true (fun i j => node_val p c i (S j) - node_val p c i j) x y else tsum2 P true false (fun i j => node_val p c (S i) j - node_val p c i j) x y).
Proof.
  intros L L1 E. unfold that1. fold p. destruct d; rewrite <- tsum2_scal; apply tsum2_ext; fold p; cbn [size]; intros i j Hi Hj.
  - rewrite (ev0 o M e c c1) by (try assumption; cbn [edge_ok]; lia). cbn [stop start]. rewrite Nat.add_1_r. destruct o; reflexivity.
  - destruct j as [|j].
    + cbn [edge_val]. unfold node_val. cbn [node_at]. ring.
    + rewrite (ev0 o M e c c1) by (try assumption; cbn [edge_ok]; lia). cbn [stop start]. rewrite Nat.add_1_r. destruct o; reflexivity.
Qed.
Theorem trecon_d0 o M e f G c c1 : length c = tnb0 p -> length c1 = tnb1 p -> mat_times (incidence0 o p M e) c c1 ->
  inside_square (fun x y => through2 f F x y = that0 P c x y) ->
  inside_square (fun x y => has_grad2 f (fst F x y) (snd F x y)
    (match o with Inner => through2 (Disc2Spec.value2 G) F x y | Outer => (- snd (through2 (Disc2Spec.value2 G) F x y), fst (through2 (Disc2Spec.value2 G) F x y)) end)) ->
  inside_square (fun x y => tpulls1 o (J x y) (through2 (Disc2Spec.value2 G) F x y) (fun d => that1 o P M e c1 d x y)).
Proof.
  intros L L1 E H HG x y Hx Hy d. rewrite (that1_d0 o M e c c1) by assumption.
  destruct (through2_lim F J HJ f x y _ (HG x y Hx Hy)) as [Dx Dy].
  assert (Ex : dot2 (match o with Inner => through2 (Disc2Spec.value2 G) F x y | Outer => (- snd (through2 (Disc2Spec.value2 G) F x y), fst (through2 (Disc2Spec.value2 G) F x y)) end) (mcol (J x y) false) =
    tsum2 P true false (fun i j => node_val p c (S i) j - node_val p c i j) x y).
  { eapply uniqueness_limite; [exact Dx|]. eapply (derivable_pt_lim_locally_ext (fun t => that0 P c t y) _ _ (-1) 1); [exact Hx| |apply (lim_tsum2_x n P false _ x y B)].
    intros t Ht. symmetry. apply H; assumption. }
  assert (Ey : dot2 (match o with Inner => through2 (Disc2Spec.value2 G) F x y | Outer => (- snd (through2 (Disc2Spec.value2 G) F x y), fst (through2 (Disc2Spec.value2 G) F x y)) end) (mcol (J x y) true) =
    tsum2 P false true (fun i j => node_val p c i (S j) - node_val p c i j) x y).
  { eapply uniqueness_limite; [exact Dy|]. eapply (derivable_pt_lim_locally_ext (fun t => that0 P c x t) _ _ (-1) 1); [exact Hy| |apply (lim_tsum2_y n P false _ x y B)].
    intros t Ht. symmetry. apply H; assumption. }
  rewrite <- Ex, <- Ey. destruct o, d; unfold cross2, dot2; cbn [fst snd]; ring.
Qed.
Variable hxy : R -> R -> plane.
Hypothesis HM : mixed J hxy.
Lemma ev1 o M e c1 c2 i j : length c1 = tnb1 p -> length c2 = tnb2 p -> mat_times (incidence1 o p M e) c1 c2 -> (i < p)%nat -> (j < p)%nat ->
  face_val p c2 i j = IZR (sgn1 o) * (edge_val o p M e c1 (Dx i (S j)) - edge_val o p M e c1 (Dx i j)) + (edge_val o p M e c1 (Dy (S i) j) - edge_val o p M e c1 (Dy i j)).
Proof.
  intros L L1 E Hi Hj. unfold face_val. rewrite (E (Z.to_nat (tln2 p i j))).
  2:{ rewrite L1. pose proof (proj1 (numbers_face p) (i, j) (conj Hi Hj)) as B1. cbn [fst snd] in B1. lia. }
  rewrite apply_rs, L. unfold incidence1.
  rewrite (rs_ext _ _ (fun q => IZR (tE1 o p (Z.to_nat (tln2 p i j)) q) * (IZR (transition o p M e q) * nth q c1 0))) by (intros q _; rewrite mult_IZR; ring).
  rewrite (E1_row_R o p i j (fun q => IZR (transition o p M e q) * nth q c1 0)) by assumption. rewrite !Nat.add_1_r.
  unfold edge_val, at_dxR. destruct j as [|j]; reflexivity.
Qed.
Theorem trecon_d1 o M e v D c1 c2 : length c1 = tnb1 p -> length c2 = tnb2 p -> mat_times (incidence1 o p M e) c1 c2 ->
  inside_square (fun x y => tpulls1 o (J x y) (through2 (Disc2Spec.value2 v) F x y) (fun d => that1 o P M e c1 d x y)) ->
  inside_square (fun x y => has_grad2 (fst v) (fst F x y) (snd F x y) (fst (through2 D F x y)) /\ has_grad2 (snd v) (fst F x y) (snd F x y) (snd (through2 D F x y))) ->
  inside_square (fun x y => tpulls2 (J x y) (through2 (match o with Inner => rot2 D | Outer => div2 D end) F x y) (that2 P c2 x y)).
Proof.
  intros L L1 E H HD x y Hx Hy. destruct (HD x y Hx Hy) as [G0 G1].
  destruct (through2_lim F J HJ _ x y _ G0) as [V1 V2]. destruct (through2_lim F J HJ _ x y _ G1) as [V3 V4]. destruct (HM x y) as (A & A' & C & C').
  assert (Ex : forall l, derivable_pt_lim (fun t => match o with Inner => circ F J v true t y | Outer => flux F J v true t y end) x l ->
    l = tsum2 P true true (fun i j => edge_val o p M e c1 (Dy (S i) j) - edge_val o p M e c1 (Dy i j)) x y).
  { intros l Dl. eapply uniqueness_limite; [exact Dl|].
    eapply (derivable_pt_lim_locally_ext (fun t => that1 o P M e c1 true t y) _ _ (-1) 1); [exact Hx| |exact (lim_tsum2_x n P true (fun i j => edge_val o p M e c1 (Dy i j)) x y B)].
    intros t Ht. specialize (H t y Ht Hy true). destruct o; [rewrite <- H; apply Rmult_1_l|symmetry; exact H]. }
  assert (Ey : forall l, derivable_pt_lim (fun t => match o with Inner => circ F J v false x t | Outer => flux F J v false x t * -1 end) y l ->
    l = tsum2 P true true (fun i j => edge_val o p M e c1 (Dx i (S j)) - edge_val o p M e c1 (Dx i j)) x y).
  { intros l Dl. eapply uniqueness_limite; [exact Dl|].
    eapply (derivable_pt_lim_locally_ext (fun t => that1 o P M e c1 false x t) _ _ (-1) 1); [exact Hy| |exact (lim_tsum2_y n P true (fun i j => edge_val o p M e c1 (Dx i j)) x y B)].
    intros t Ht. specialize (H x t Hx Ht false). destruct o; [rewrite <- H; unfold flux; ring|symmetry; exact H]. }
  assert (S2 : that2 P c2 x y = IZR (sgn1 o) * tsum2 P true true (fun i j => edge_val o p M e c1 (Dx i (S j)) - edge_val o p M e c1 (Dx i j)) x y +
     tsum2 P true true (fun i j => edge_val o p M e c1 (Dy (S i) j) - edge_val o p M e c1 (Dy i j)) x y).
  { rewrite <- tsum2_scal, <- tsum2_plus. unfold that2. apply tsum2_ext. fold p. cbn [size]. intros i j Hi Hj. apply (ev1 o M e c1 c2); assumption. }
  unfold tpulls2. rewrite S2. destruct o.
  - pose proof (Ex _ (lim_minor _ _ _ _ _ _ _ _ _ V1 C' V3 A')) as E1.
    pose proof (derivable_pt_lim_mult (fun t => flux F J v false x t) (fun _ => -1) y _ _ (lim_minor _ _ _ _ _ _ _ _ _ V2 C V4 A) (derivable_pt_lim_const (-1) y)) as K.
    pose proof (Ey _ K) as E2. rewrite <- E1, <- E2. unfold div2, det2, cross2, flux, dot2, mcol, comp, through2, Disc2Spec.value2, sgn1. cbn [fst snd]. ring.
  - pose proof (Ex _ (lim_dot2 _ _ _ _ _ _ _ _ _ A' C' V1 V3)) as E1. pose proof (Ey _ (lim_dot2 _ _ _ _ _ _ _ _ _ A C V2 V4)) as E2.
    rewrite <- E1, <- E2. unfold rot2, det2, cross2, dot2, mcol, comp, through2, sgn1. cbn [fst snd]. ring.
Qed.
End Derivatives.
