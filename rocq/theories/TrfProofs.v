(* Cells on sides and discretization of trace forms. *)
From Coq Require Import Reals List ZArith Lia Lra Bool Psatz.
From Verif Require SpaceProofs.
From Verif Require Import TfiModel TfiSpec CtModel CtSpec RingSum SpaceSpec SpaceModel DiscModel DiscSpec DiscProofs DiscProofs2
  ReconModel ReconSpec ReconProofs ReconProofs2 TrfModel TrfSpec.
Import ListNotations.
Open Scope R_scope.

Lemma filter_flat {A B} (P : B -> bool) (f : A -> list B) l : filter P (flat_map f l) = flat_map (fun a => filter P (f a)) l.
Proof. induction l as [|a l IH]; [reflexivity|]. cbn [flat_map]. rewrite filter_app, IH. reflexivity. Qed.
Lemma filter_maps {A B} (P : B -> bool) (f : A -> B) l : filter P (map f l) = map f (filter (fun a => P (f a)) l).
Proof. induction l as [|a l IH]; [reflexivity|]. cbn [map filter]. rewrite IH. destruct (P (f a)); reflexivity. Qed.
Lemma filter_eqb n i : (i < n)%nat -> filter (fun j => Nat.eqb j i) (seq 0 n) = [i].
Proof.
  assert (G : forall a m, (i < a)%nat -> filter (fun j => Nat.eqb j i) (seq a m) = []).
  { intros a m; revert a; induction m as [|m IH]; intros a H; [reflexivity|]. cbn [seq filter].
    destruct (Nat.eqb_spec a i); [lia|]. apply IH. lia. }
  assert (H : forall a m, (a <= i < a + m)%nat -> filter (fun j => Nat.eqb j i) (seq a m) = [i]).
  { intros a m; revert a; induction m as [|m IH]; intros a H; [lia|]. cbn [seq filter].
    destruct (Nat.eqb_spec a i) as [->|E]; [rewrite G by lia; reflexivity|]. apply IH. lia. }
  intros. apply H. lia.
Qed.
Lemma filter_const {A} (b : bool) (l : list A) : filter (fun _ => b) l = if b then l else [].
Proof. induction l as [|a l IH]; [destruct b; reflexivity|]. cbn [filter]. rewrite IH. destruct b; reflexivity. Qed.
Lemma flat_if {A} (f : nat -> list A) i n : (i < n)%nat ->
  flat_map (fun j => if Nat.eqb j i then f j else []) (seq 0 n) = f i.
Proof.
  intros H. rewrite <- (app_nil_r (f i)). replace (f i ++ []) with (flat_map f (filter (fun j => Nat.eqb j i) (seq 0 n)))
    by (rewrite filter_eqb by assumption; reflexivity).
  generalize (seq 0 n). induction l as [|a l IH]; [reflexivity|]. cbn [flat_map filter]. destruct (Nat.eqb a i); cbn [flat_map]; rewrite IH; reflexivity.
Qed.
Lemma flat_single {A B} (f : A -> B) l : flat_map (fun a => [f a]) l = map f l.
Proof. induction l as [|a l IH]; [reflexivity|]. cbn [flat_map map app]. rewrite IH. reflexivity. Qed.

Definition two_loops {A} (na nb : nat) (f : nat -> nat -> A) : list A := flat_map (fun k => map (fun j => f j k) (seq 0 na)) (seq 0 nb).
Lemma eb b : Bool.eqb b b = true.
Proof. destruct b; reflexivity. Qed.
Lemma side_x (u : bool) p0 p1 p2 b d : filter (on_side [p0; p1; p2] (0%nat, u)) (cells_t [p0; p1; p2] [false; b; d]) =
  two_loops (size p1 b) (size p2 d) (fun j k => [(false, if u then p0 else 0%nat); (b, j); (d, k)]).
Proof.
  rewrite cells_t3, filter_flat. unfold two_loops. apply flat_map_ext'. intros k. rewrite filter_flat.
  rewrite <- flat_single. apply flat_map_ext'. intros j. rewrite filter_maps. unfold on_side, factor_eqb. cbn [fst snd nth_error Bool.eqb andb size].
  rewrite filter_eqb by (destruct u; lia). reflexivity.
Qed.
Lemma side_y (u : bool) p0 p1 p2 a d : filter (on_side [p0; p1; p2] (1%nat, u)) (cells_t [p0; p1; p2] [a; false; d]) =
  two_loops (size p0 a) (size p2 d) (fun i k => [(a, i); (false, if u then p1 else 0%nat); (d, k)]).
Proof.
  rewrite cells_t3, filter_flat. unfold two_loops. apply flat_map_ext'. intros k. rewrite filter_flat. cbn [size].
  rewrite <- (flat_if (fun j => map (fun i => [(a, i); (false, j); (d, k)]) (seq 0 (size p0 a))) (if u then p1 else 0%nat) (S p1)) by (destruct u; lia).
  apply flat_map_ext'. intros j. rewrite filter_maps. unfold on_side, factor_eqb. cbn [fst snd nth_error Bool.eqb andb].
  rewrite filter_const. destruct (Nat.eqb j _); reflexivity.
Qed.
Lemma side_z (u : bool) p0 p1 p2 a b : filter (on_side [p0; p1; p2] (2%nat, u)) (cells_t [p0; p1; p2] [a; b; false]) =
  two_loops (size p0 a) (size p1 b) (fun i j => [(a, i); (b, j); (false, if u then p2 else 0%nat)]).
Proof.
  rewrite cells_t3, filter_flat. cbn [size].
  rewrite <- (flat_if (fun k => two_loops (size p0 a) (size p1 b) (fun i j => [(a, i); (b, j); (false, k)])) (if u then p2 else 0%nat) (S p2)) by (destruct u; lia).
  apply flat_map_ext'. intros k. rewrite filter_flat. unfold two_loops.
  replace (if Nat.eqb k (if u then p2 else 0%nat) then _ else _) with
    (flat_map (fun j => if Nat.eqb k (if u then p2 else 0%nat) then map (fun i => [(a, i); (b, j); (false, k)]) (seq 0 (size p0 a)) else []) (seq 0 (size p1 b))).
  2: { destruct (Nat.eqb k _); [reflexivity|]. induction (seq 0 (size p1 b)); [reflexivity|assumption]. }
  apply flat_map_ext'. intros j. rewrite filter_maps. unfold on_side, factor_eqb. cbn [fst snd nth_error Bool.eqb andb].
  rewrite filter_const. destruct (Nat.eqb k _); reflexivity.
Qed.
Lemma side_no p0 p1 p2 a b d ax u : nth_error [a; b; d] ax = Some true -> filter (on_side [p0; p1; p2] (ax, u)) (cells_t [p0; p1; p2] [a; b; d]) = [].
Proof.
  intros H. assert (G : forall c, In c (cells_t [p0; p1; p2] [a; b; d]) -> on_side [p0; p1; p2] (ax, u) c = false).
  { intros c Hc. apply In_cells_t in Hc; [|reflexivity]. unfold on_side. cbn [fst snd].
    destruct (nth_error c ax) as [f|] eqn:E; [|reflexivity]. destruct (nth_error [p0; p1; p2] ax); [|reflexivity].
    assert (E' := map_nth_error fst _ _ E). rewrite Hc, H in E'. injection E' as E'. unfold factor_eqb. rewrite <- E'. reflexivity. }
  revert G. generalize (cells_t [p0; p1; p2] [a; b; d]). induction l as [|c l IH]; intros G; [reflexivity|].
  cbn [filter]. rewrite (G c) by (left; reflexivity). apply IH. intros; apply G; right; assumption.
Qed.
(* the interval or node factor of the tangential axes *)
Definition kind (k : tdeg) : bool := match k with D0 => false | D2 => true end.
Definition end_no (s : tside) (n : nat) : nat := if upper s then n else 0%nat.
Definition side_cell (s : tside) (k : tdeg) (p0 p1 p2 : nat) (i j : nat) : cell :=
  match across s with
  | cX => [(false, end_no s p0); (kind k, i); (kind k, j)]
  | cY => [(kind k, i); (false, end_no s p1); (kind k, j)]
  | cZ => [(kind k, i); (kind k, j); (false, end_no s p2)]
  end.
Lemma side_cells_loops k s p0 p1 p2 : side_cells [p0; p1; p2] (types_of k) s =
  two_loops (size (fst (side_pair s p0 p1 p2)) (kind k)) (size (snd (side_pair s p0 p1 p2)) (kind k)) (side_cell s k p0 p1 p2).
Proof.
  unfold side_cells, cells, nodes3, faces3. destruct k; cbn [types_of kind]; unfold nodes3, faces3; rewrite filter_flat; cbn [flat_map]; rewrite ?app_nil_r.
  - destruct s; unfold on_the, side_cell, end_no; cbn [across upper axis_no side_pair fst snd];
      first [exact (side_x true _ _ _ _ _)|exact (side_x false _ _ _ _ _)|exact (side_y true _ _ _ _ _)|exact (side_y false _ _ _ _ _)|exact (side_z true _ _ _ _ _)|exact (side_z false _ _ _ _ _)].
  - destruct s; unfold on_the, side_cell, end_no; cbn [across upper axis_no side_pair fst snd];
      repeat first [rewrite (side_no p0 p1 p2 true _ _ 0%nat) by reflexivity|rewrite (side_no p0 p1 p2 _ true _ 1%nat) by reflexivity|rewrite (side_no p0 p1 p2 _ _ true 2%nat) by reflexivity]; rewrite ?app_nil_r; cbn [app];
      first [exact (side_x true _ _ _ _ _)|exact (side_x false _ _ _ _ _)|exact (side_y true _ _ _ _ _)|exact (side_y false _ _ _ _ _)|exact (side_z true _ _ _ _ _)|exact (side_z false _ _ _ _ _)].
Qed.

Lemma map_loops {A B} (f : A -> B) na nb h : map f (two_loops na nb h) = two_loops na nb (fun i j => f (h i j)).
Proof. unfold two_loops. rewrite map_flat_map. apply flat_map_ext'. intros k. rewrite map_map. reflexivity. Qed.
Lemma loops_ext {A} na nb (f h : nat -> nat -> A) : (forall i j, (i < na)%nat -> (j < nb)%nat -> f i j = h i j) -> two_loops na nb f = two_loops na nb h.
Proof.
  intros H. unfold two_loops. rewrite !flat_map_concat_map. f_equal. apply map_ext_in. intros k Hk. apply map_ext_in. intros i Hi.
  apply in_seq in Hk, Hi. apply H; lia.
Qed.
Lemma map2_app' {A B C} (f : A -> B -> C) a b c d : length a = length c -> map2 f (a ++ b) (c ++ d) = map2 f a c ++ map2 f b d.
Proof. revert c. induction a as [|x a IH]; intros [|y c] H; try discriminate; [reflexivity|]. cbn [app map2]. rewrite IH by (injection H; auto). reflexivity. Qed.
Lemma map2_maps {A B C D} (f : A -> B -> C) (u : D -> A) (v : D -> B) l : map2 f (map u l) (map v l) = map (fun d => f (u d) (v d)) l.
Proof. induction l as [|x l IH]; [reflexivity|]. cbn [map map2]. rewrite IH. reflexivity. Qed.
Lemma map2_loops {A B C} (f : A -> B -> C) na nb u v : map2 f (two_loops na nb u) (two_loops na nb v) = two_loops na nb (fun i j => f (u i j) (v i j)).
Proof.
  unfold two_loops. induction (seq 0 nb) as [|k l IH]; [reflexivity|]. cbn [flat_map].
  rewrite map2_app' by (rewrite !map_length; reflexivity). rewrite map2_maps, IH. reflexivity.
Qed.
Lemma length_loops {A} na nb (f : nat -> nat -> A) : length (two_loops na nb f) = (na * nb)%nat.
Proof. unfold two_loops. rewrite (SpaceProofs.length_flat_map_const _ _ na), seq_length; [lia|]. intros. rewrite map_length, seq_length. reflexivity. Qed.

(* ---------- discretization ---------- *)
Lemma nodes_loops na nb pa pb : length na = S pa -> length nb = S pb -> grid2F na nb = two_loops (S pa) (S pb) (fun i j => (nd na i, nd nb j)).
Proof.
  intros Ha Hb. transitivity (grid2F (map (nd na) (seq 0 (S pa))) (map (nd nb) (seq 0 (S pb)))); [rewrite <- (nodes_seq _ _ Ha), <- (nodes_seq _ _ Hb); reflexivity|].
  unfold grid2F, two_loops. rewrite flat_map_map. apply flat_map_ext'. intros k.
  rewrite map_map. reflexivity.
Qed.
Lemma quad_nodes_seq n p q : length n = S p -> quad_nodes n q = map (fun i => map (st n i) q) (seq 0 p).
Proof.
  intros H. unfold quad_nodes. rewrite (init_seq _ _ H), (diffs_seq _ _ H), map2_maps. apply map_ext. intros i. apply map_ext. intros x. unfold st. field.
Qed.
Lemma nth_map_seq {A} (f : nat -> A) j n d : (j < n)%nat -> nth j (map f (seq 0 n)) d = f j.
Proof. intros H. rewrite (nth_indep _ d (f 0%nat)) by (rewrite map_length, seq_length; assumption). rewrite map_nth, seq_nth by assumption. reflexivity. Qed.
Lemma cell_points_loops na nb pa pb qa qb : length na = S pa -> length nb = S pb ->
  cell_points na nb pa pb qa qb = two_loops pa pb (fun i j => map (fun x => map (fun y => (st na i x, st nb j y)) qb) qa).
Proof.
  intros Ha Hb. unfold cell_points. fold (@two_loops (list (list (R * R))) pa pb (fun j k => map (fun x => map (fun y => (x, y)) (nth k (quad_nodes nb qb) [])) (nth j (quad_nodes na qa) []))).
  apply loops_ext. intros i j Hi Hj. rewrite (quad_nodes_seq _ _ _ Ha), (quad_nodes_seq _ _ _ Hb).
  rewrite !nth_map_seq by assumption. rewrite map_map. apply map_ext. intros x. rewrite map_map. reflexivity.
Qed.
Lemma cell_areas_loops na nb pa pb : length na = S pa -> length nb = S pb ->
  cell_areas na nb = two_loops pa pb (fun i j => (nd nb (S j) - nd nb j) * (nd na (S i) - nd na i) * (1 / 4)).
Proof.
  intros Ha Hb. unfold cell_areas, kron_v. rewrite (diffs_seq _ _ Ha), (diffs_seq _ _ Hb), flat_map_map, map_flat_map. unfold two_loops.
  apply flat_map_ext'. intros j. rewrite !map_map. reflexivity.
Qed.
Lemma end_x g p0 p1 p2 s : ends_ok g p0 p1 p2 -> across s = cX -> nd (gx g) (end_no s p0) = end_pt s.
Proof. intros ((A & B) & _) E. unfold end_no, end_pt, nd. destruct (upper s); assumption. Qed.
Lemma end_y g p0 p1 p2 s : ends_ok g p0 p1 p2 -> across s = cY -> nd (gy g) (end_no s p1) = end_pt s.
Proof. intros (_ & (A & B) & _) E. unfold end_no, end_pt, nd. destruct (upper s); assumption. Qed.
Lemma end_z g p0 p1 p2 s : ends_ok g p0 p1 p2 -> across s = cZ -> nd (gz g) (end_no s p2) = end_pt s.
Proof. intros (_ & _ & (A & B)) E. unfold end_no, end_pt, nd. destruct (upper s); assumption. Qed.

Section Disc.
Variables (g : Grid) (p0 p1 p2 : nat).
Hypotheses (L : lengths_ok g p0 p1 p2) (E : ends_ok g p0 p1 p2).
Lemma side_nodes_ok (h : R -> R -> R -> R) s : (let (a, b) := side_pair s (gx g) (gy g) (gz g) in map (side_at h s) (grid2F a b)) =
  map (cell_quad g h) (side_cells [p0; p1; p2] nodes3 s).
Proof.
  destruct L as (L0 & L1 & L2). rewrite (side_cells_loops D0), map_loops.
  pose proof (end_x g p0 p1 p2 s E) as Ex. pose proof (end_y g p0 p1 p2 s E) as Ey. pose proof (end_z g p0 p1 p2 s E) as Ez.
  destruct s; cbn [side_pair fst snd]; erewrite nodes_loops by eassumption; rewrite map_loops; apply loops_ext; intros i j _ _;
    unfold side_at, side_cell, cell_quad, at_pt, full_ep; cbn [across kind fst snd]; rewrite !factor_pt; cbn [fst snd];
    first [rewrite Ex by reflexivity|rewrite Ey by reflexivity|rewrite Ez by reflexivity]; cbn [end_pt upper]; unfold end_pt; cbn [upper]; ring.
Qed.
Lemma side_faces_ok (h : R -> R -> R -> R) s : trf_disc2_with h (gx g) (gy g) (gz g) p0 p1 p2 (rx g) (ry g) (rz g) s =
  map (cell_quad g h) (side_cells [p0; p1; p2] faces3 s).
Proof.
  destruct L as (L0 & L1 & L2). rewrite (side_cells_loops D2), map_loops.
  pose proof (end_x g p0 p1 p2 s E) as Ex. pose proof (end_y g p0 p1 p2 s E) as Ey. pose proof (end_z g p0 p1 p2 s E) as Ez.
  unfold trf_disc2_with. destruct s; cbn [side_pair fst snd]; erewrite cell_points_loops, cell_areas_loops by eassumption; rewrite map2_loops; apply loops_ext; intros i j _ _;
    unfold side_at, side_cell, cell_quad, at_pt, full_ep; cbn [across kind fst snd]; unfold end_pt in *; cbn [upper across] in *;
    rewrite map2_map_l, lsum_map2; rewrite ?factor_pt; rewrite factor_int; apply rsum_ext; intros [a wa] _; cbn [fst snd];
    rewrite map2_map_l, lsum_map2; rewrite ?factor_pt; rewrite factor_int; apply rsum_ext; intros [b wb] _; cbn [fst snd]; rewrite ?factor_pt; cbn [fst snd];
    first [rewrite Ex by reflexivity|rewrite Ey by reflexivity|rewrite Ez by reflexivity]; field.
Qed.
End Disc.

(* the integrals over a cell of the side depend on the values on the side *)
Lemma in_loops {A} (x : A) na nb f : In x (two_loops na nb f) -> exists i j, (i < na)%nat /\ (j < nb)%nat /\ x = f i j.
Proof.
  unfold two_loops. intros H. apply in_flat_map in H as (j & Hj & H). apply in_map_iff in H as (i & <- & Hi). apply in_seq in Hj, Hi.
  exists i, j. repeat split; lia.
Qed.
Lemma side_quad_ext g p0 p1 p2 s k h h' c : grid_ok g -> lengths_ok g p0 p1 p2 -> ends_ok g p0 p1 p2 ->
  on_face s (fun x y z => h x y z = h' x y z) -> In c (side_cells [p0; p1; p2] (types_of k) s) -> cell_quad g h c = cell_quad g h' c.
Proof.
  intros G (L0 & L1 & L2) E H Hc. rewrite side_cells_loops in Hc. apply in_loops in Hc as (i & j & Hi & Hj & ->).
  pose proof (end_x g p0 p1 p2 s E) as Ex. pose proof (end_y g p0 p1 p2 s E) as Ey. pose proof (end_z g p0 p1 p2 s E) as Ez.
  assert (B : in_ref (end_pt s)) by (unfold in_ref, end_pt; destruct (upper s); lra).
  assert (N : (end_no s p0 < S p0)%nat /\ (end_no s p1 < S p1)%nat /\ (end_no s p2 < S p2)%nat) by (unfold end_no; destruct (upper s); lia).
  set (put := fun (h : R -> R -> R -> R) x y z => match across s with cX => h (end_pt s) y z | cY => h x (end_pt s) z | cZ => h x y (end_pt s) end).
  assert (P : forall h, cell_quad g h (side_cell s k p0 p1 p2 i j) = cell_quad g (put h) (side_cell s k p0 p1 p2 i j)).
  { intros f. unfold side_cell, cell_quad, put. destruct (across s) eqn:A.
    - rewrite !factor_pt. cbn [fst snd]. rewrite (Ex eq_refl). reflexivity.
    - apply rsum_ext. intros. rewrite !factor_pt. cbn [fst snd]. rewrite (Ey eq_refl). reflexivity.
    - apply rsum_ext. intros. apply rsum_ext. intros. rewrite !factor_pt. cbn [fst snd]. rewrite (Ez eq_refl). reflexivity. }
  rewrite (P h), (P h'). apply (cell_quad_ext g); [assumption| |].
  - intros x y z Hx Hy Hz. unfold put. unfold on_face in H. destruct (across s); apply H; try assumption; reflexivity.
  - unfold side_cell. destruct s; cbn [across side_pair fst snd] in *; repeat constructor; cbn [fst snd]; rewrite ?L0, ?L1, ?L2; try (apply N); destruct k; cbn [kind size] in *; lia.
Qed.
