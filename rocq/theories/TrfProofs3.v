(* Reconstruction and mass matrices of trace forms. *)
From Coq Require Import Reals List ZArith Lia Lra Bool Psatz.
From Verif Require SpaceProofs.
From Verif Require Import TfiModel TfiSpec CtModel CtSpec CtProofs RingSum SpaceSpec SpaceModel DiscModel DiscSpec DiscProofs DiscProofs2 DiscProofs3
  ReconModel ReconSpec ReconProofs ReconProofs2 ReconProofs3 ReconProofs4 ReconProofs5 TrfModel TrfSpec TrfProofs TrfProofs2.
Import ListNotations.
Open Scope R_scope.

Lemma kron_two fb nb bs fa na xs : kron (frows fb nb bs) (frows fa na xs) =
  two_loops na nb (fun i j => flat_map (fun y => map (fun x => fb j y * fa i x) xs) bs).
Proof.
  unfold kron, frows, two_loops. rewrite ReconProofs.flat_map_map. apply flat_map_ext'. intros k. rewrite map_map. apply map_ext. intros j.
  rewrite ReconProofs.flat_map_map. apply flat_map_ext'. intros y. rewrite map_map. reflexivity.
Qed.
Lemma basis_1d_rows k P x : basis_1d k P x = frows (fun i => factor_fn P (kind k, i)) (size (pdeg P) (kind k)) x.
Proof. destruct k; [apply node_rows|apply edge_rows]. Qed.
Lemma side_points_mesh s m : side_points s m = points (side_mesh s m).
Proof. destruct s; reflexivity. Qed.
Lemma points_loops s m : points (side_mesh s m) =
  let (a, b) := side_pair s (mx m) (my m) (mz m) in flat_map (fun y => map (fun x => full_ep s x y) a) b.
Proof.
  destruct s; unfold points, side_mesh, on_axis3, mesh3, end_pt; cbn [across upper mx my mz side_pair full_ep];
  first [apply flat_map_ext'; intros z; rewrite <- flat_single; apply flat_map_ext'; reflexivity
        |apply flat_map_ext'; intros z; cbn [flat_map]; apply app_nil_r
        |cbn [flat_map]; apply app_nil_r].
Qed.
Definition side_row sp s m (c : cell) : list R := map (at_pt (side_fn sp s c)) (points (side_mesh s m)).
Lemma side_basis_rows k sp m s : side_basis k sp m s = map (side_row sp s m) (side_cells (degrees sp) (types_of k) s).
Proof.
  unfold side_basis, degrees. rewrite !basis_1d_rows, side_cells_loops, map_loops.
  destruct s; cbn [side_pair fst snd]; rewrite kron_two; apply loops_ext; intros i j _ _; unfold side_row; rewrite points_loops; cbn [side_pair];
    rewrite map_flat_map; apply flat_map_ext'; intros y; rewrite map_map; apply map_ext; intros x; unfold side_cell, side_fn; cbn [across full_ep at_pt]; ring.
Qed.
Lemma trf_recon0_map sp m s c : trf_recon0 sp m s c = map (at_pt (side_hat D0 sp s c)) (points (side_mesh s m)).
Proof.
  unfold trf_recon0. rewrite side_basis_rows, side_points_mesh. unfold side_row. rewrite (einsum_rows (fun a => at_pt (side_fn sp s a))).
  apply map_ext. intros [[x y] z]. reflexivity.
Qed.
Theorem trf_recon0_ok sp m s c : array_of (side_mesh s m) (trf_recon0 sp m s c) (fun x y z v => v = side_hat D0 sp s c x y z).
Proof. rewrite trf_recon0_map. apply array_map. intros x y z _ _ _. reflexivity. Qed.
Lemma trf_recon2_map sp m J s c : trf_recon2 sp m J s c =
  map (fun q => at_pt (side_hat D2 sp s c) q * (1 / norm (area_vec (at_pt J q) s))) (points (side_mesh s m)).
Proof.
  unfold trf_recon2. rewrite side_basis_rows, side_points_mesh. unfold side_row. apply map_seq_nth. intros j q Eq.
  rewrite ReconProofs.lsum_map2, combine_map_l, ReconProofs.rsum_map. cbn [fst snd].
  rewrite (nth_error_nth _ _ 0 (map_nth_error (fun q => 1 / sqrt (side_metric J s q)) _ _ Eq)). unfold side_metric at 1. rewrite sqrt_metric.
  destruct q as [[x y] z]. cbn [at_pt]. unfold side_hat. rewrite rsum_scal. apply rsum_ext. intros [a w] _. cbn [fst snd].
  rewrite (nth_error_nth _ _ 0 (map_nth_error (at_pt (side_fn sp s a)) _ _ Eq)). cbn [at_pt]. ring.
Qed.
Theorem trf_recon2_ok sp m J s c : on_grid (side_mesh s m) (fun x y z => area_vec (J x y z) s <> zero_vec) ->
  array_of (side_mesh s m) (trf_recon2 sp m J s c) (fun x y z v => v * norm (area_vec (J x y z) s) = side_hat D2 sp s c x y z).
Proof.
  intros H. rewrite trf_recon2_map. apply array_map. intros x y z X Y Z. cbn [at_pt]. pose proof (norm_pos _ (H x y z X Y Z)). field. lra.
Qed.

(* ---------- traces of standard forms ---------- *)
Lemma rsum_loops {A} na nb (f : nat -> nat -> A) h : rsum (two_loops na nb f) h = rsum (seq 0 nb) (fun j => rsum (seq 0 na) (fun i => h (f i j))).
Proof. unfold two_loops. rewrite rsum_flat_map. apply rsum_ext. intros j _. apply ReconProofs.rsum_map. Qed.
Lemma side_hat_map k sp s W x y z : side_hat k sp s (map W (side_cells (degrees sp) (types_of k) s)) x y z =
  rsum (side_cells (degrees sp) (types_of k) s) (fun c => W c * side_fn sp s c x y z).
Proof. unfold side_hat. rewrite <- (map_id (side_cells _ _ _)) at 1. rewrite combine_maps, ReconProofs.rsum_map. reflexivity. Qed.
Lemma at_end n P i j : basis_of n P -> (i <= pdeg P)%nat -> (j <= pdeg P)%nat -> factor_fn P (false, i) (nth j n 0) = if (i =? j)%nat then 1 else 0.
Proof. intros (_ & K & _) Hi Hj. apply K; assumption. Qed.
Lemma rsum_pick n j (h : nat -> R) (f : nat -> R) : (j < n)%nat -> (forall i, (i < n)%nat -> f i = if (i =? j)%nat then 1 else 0) -> rsum (seq 0 n) (fun i => h i * f i) = h j.
Proof.
  intros Hj H. rewrite (rsum_one n j).
  - rewrite H by assumption. rewrite Nat.eqb_refl. ring.
  - assumption.
  - intros i Hi N. rewrite H by assumption. destruct (Nat.eqb_spec i j); [contradiction|ring].
Qed.
Section Trace.
Variables (g : Grid) (sp : Space3).
Hypothesis B : basis3_of g sp.
Hypothesis E : ends_ok g (pdeg (s0 sp)) (pdeg (s1 sp)) (pdeg (s2 sp)).
Lemma end_le s n : (end_no s n <= n)%nat.
Proof. unfold end_no. destruct (upper s); lia. Qed.
(* the sum over the axis across the side *)
Lemma pick_x s (h : nat -> R) : across s = cX -> rsum (seq 0 (S (pdeg (s0 sp)))) (fun i => h i * factor_fn (s0 sp) (false, i) (end_pt s)) = h (end_no s (pdeg (s0 sp))).
Proof.
  intros A. destruct B as (B0 & _ & _). rewrite <- (end_x g _ _ _ s E A). unfold nd. apply rsum_pick; [pose proof (end_le s (pdeg (s0 sp))); lia|].
  intros i Hi. apply (at_end _ _ _ _ B0); [lia|apply end_le].
Qed.
Lemma pick_y s (h : nat -> R) : across s = cY -> rsum (seq 0 (S (pdeg (s1 sp)))) (fun i => h i * factor_fn (s1 sp) (false, i) (end_pt s)) = h (end_no s (pdeg (s1 sp))).
Proof.
  intros A. destruct B as (_ & B0 & _). rewrite <- (end_y g _ _ _ s E A). unfold nd. apply rsum_pick; [pose proof (end_le s (pdeg (s1 sp))); lia|].
  intros i Hi. apply (at_end _ _ _ _ B0); [lia|apply end_le].
Qed.
Lemma pick_z s (h : nat -> R) : across s = cZ -> rsum (seq 0 (S (pdeg (s2 sp)))) (fun i => h i * factor_fn (s2 sp) (false, i) (end_pt s)) = h (end_no s (pdeg (s2 sp))).
Proof.
  intros A. destruct B as (_ & _ & B0). rewrite <- (end_z g _ _ _ s E A). unfold nd. apply rsum_pick; [pose proof (end_le s (pdeg (s2 sp))); lia|].
  intros i Hi. apply (at_end _ _ _ _ B0); [lia|apply end_le].
Qed.
Definition hat_of (k : tdeg) (s : tside) (c : list R) : R -> R -> R -> R := match k with D0 => hat0 sp c | D2 => hat2 sp c (across s) end.
Lemma hat_tsum k s W x y z : hat_of k s (map W (cells (degrees sp) (types_of k))) x y z =
  let t d := if ceqb d (across s) then false else kind k in
  tsum sp (t cX) (t cY) (t cZ) (fun i j l => W (c3 (t cX) (t cY) (t cZ) i j l)) x y z.
Proof.
  destruct k; cbn [hat_of types_of kind].
  - rewrite hat0_t. cbv zeta. destruct (across s); reflexivity.
  - rewrite hat2_t. cbv zeta. destruct (across s); reflexivity.
Qed.
Lemma trace_hat_map k s W : forall x y z, TfiModel.get (x, y, z) (across s) = end_pt s ->
  side_hat k sp s (restrict_to (degrees sp) (types_of k) s (map W (cells (degrees sp) (types_of k)))) x y z =
  hat_of k s (map W (cells (degrees sp) (types_of k))) x y z.
Proof.
  intros x y z H. rewrite restrict_map, side_hat_map, hat_tsum. unfold degrees at 1. rewrite side_cells_loops, rsum_loops. unfold tsum, c3, side_cell. cbv zeta.
  pose proof (pick_x s) as PX. pose proof (pick_y s) as PY. pose proof (pick_z s) as PZ.
  assert (AX : across s = cX -> side_pair s (pdeg (s0 sp)) (pdeg (s1 sp)) (pdeg (s2 sp)) = (pdeg (s1 sp), pdeg (s2 sp))) by (destruct s; (reflexivity || discriminate)).
  assert (AY : across s = cY -> side_pair s (pdeg (s0 sp)) (pdeg (s1 sp)) (pdeg (s2 sp)) = (pdeg (s0 sp), pdeg (s2 sp))) by (destruct s; (reflexivity || discriminate)).
  assert (AZ : across s = cZ -> side_pair s (pdeg (s0 sp)) (pdeg (s1 sp)) (pdeg (s2 sp)) = (pdeg (s0 sp), pdeg (s1 sp))) by (destruct s; (reflexivity || discriminate)).
  destruct (across s) eqn:A; cbn [ceqb TfiModel.get] in *; [rewrite AX by reflexivity|rewrite AY by reflexivity|rewrite AZ by reflexivity]; cbn [fst snd size]; rewrite H.
  - apply rsum_ext. intros l _. apply rsum_ext. intros j _. unfold side_fn. rewrite A. symmetry.
    rewrite <- (PX (fun i => W [(false, i); (kind k, j); (kind k, l)] * (factor_fn (s1 sp) (kind k, j) y * factor_fn (s2 sp) (kind k, l) z)) eq_refl).
    apply rsum_ext. intros i _. ring.
  - apply rsum_ext. intros l _.
    transitivity (rsum (seq 0 (size (pdeg (s0 sp)) (kind k))) (fun i => rsum (seq 0 (S (pdeg (s1 sp)))) (fun j => W [(kind k, i); (false, j); (kind k, l)] * (factor_fn (s0 sp) (kind k, i) x * factor_fn (s2 sp) (kind k, l) z) * factor_fn (s1 sp) (false, j) (end_pt s)))).
    + apply rsum_ext. intros i _. rewrite (PY (fun j => W [(kind k, i); (false, j); (kind k, l)] * (factor_fn (s0 sp) (kind k, i) x * factor_fn (s2 sp) (kind k, l) z)) eq_refl). unfold side_fn. rewrite A. reflexivity.
    + rewrite rsum_swap. apply rsum_ext. intros j _. apply rsum_ext. intros i _. ring.
  - transitivity (rsum (seq 0 (S (pdeg (s2 sp)))) (fun l => rsum (seq 0 (size (pdeg (s1 sp)) (kind k))) (fun j => rsum (seq 0 (size (pdeg (s0 sp)) (kind k))) (fun i => W [(kind k, i); (kind k, j); (false, l)] * (factor_fn (s0 sp) (kind k, i) x * factor_fn (s1 sp) (kind k, j) y))) * factor_fn (s2 sp) (false, l) (end_pt s))).
    + rewrite (PZ (fun l => rsum (seq 0 (size (pdeg (s1 sp)) (kind k))) (fun j => rsum (seq 0 (size (pdeg (s0 sp)) (kind k))) (fun i => W [(kind k, i); (kind k, j); (false, l)] * (factor_fn (s0 sp) (kind k, i) x * factor_fn (s1 sp) (kind k, j) y)))) eq_refl).
      apply rsum_ext. intros j _. apply rsum_ext. intros i _. unfold side_fn. rewrite A. reflexivity.
    + apply rsum_ext. intros l _. rewrite rsum_scal. apply rsum_ext. intros j _. rewrite rsum_scal. apply rsum_ext. intros i _. ring.
Qed.
Lemma types3 k : SpaceProofs.types_ok (degrees sp) (types_of k).
Proof.
  split.
  - destruct k; repeat constructor; cbn; intuition discriminate.
  - destruct k; cbn; intros t H; repeat (destruct H as [<-|H]; [reflexivity|]); destruct H.
Qed.
Theorem trace_hat k s c : length c = length (cells (degrees sp) (types_of k)) -> forall x y z, TfiModel.get (x, y, z) (across s) = end_pt s ->
  side_hat k sp s (restrict_to (degrees sp) (types_of k) s c) x y z = hat_of k s c x y z.
Proof. intros L x y z H. rewrite (as_map _ c (SpaceProofs.NoDup_cells _ _ (types3 k)) L). apply trace_hat_map. exact H. Qed.
End Trace.
