(* The local cochains of a triangle. *)
From Coq Require Import Reals List Lra Lia Arith ZArith.
From Verif Require Import CtModel CtSpec RingSum SpaceModel SpaceSpec SpaceProofs SpaceProofs2 DiscModel DiscSpec DiscProofs DiscProofs2 Disc2Model Disc2Spec Disc2Proofs.
From Verif Require Import TriModel TriSpec TriProofs TdiscModel TdiscSpec TdiscProofs.
Import ListNotations.
Open Scope R_scope.

Lemma nth_nest {A} (f : nat -> nat -> A) a b i j d : (i < a)%nat -> (j < b)%nat -> nth (i + j * a) (nest2 a b f) d = f i j.
Proof.
  rewrite nest2_eq. intros Hi Hj.
  assert (G : forall m s, (j < m)%nat -> nth (i + j * a) (flat_map (fun j => map (fun i => f i j) (seq 0 a)) (seq s m)) d = f i (s + j)%nat).
  { clear Hj b. revert j. intros j m. revert j. induction m as [|m IH]; intros j s Hj; [lia|]. cbn [seq flat_map].
    destruct j as [|j].
    - rewrite app_nth1 by (rewrite map_length, seq_length; lia). rewrite Nat.mul_0_l, !Nat.add_0_r.
      rewrite nth_indep with (d' := f 0%nat s) by (rewrite map_length, seq_length; lia).
      rewrite (map_nth (fun i => f i s)), seq_nth by lia. reflexivity.
    - rewrite app_nth2 by (rewrite map_length, seq_length; cbn; lia). rewrite map_length, seq_length.
      replace (i + S j * a - a)%nat with (i + j * a)%nat by (cbn; lia). rewrite IH by lia. f_equal. lia. }
  rewrite G by exact Hj. reflexivity.
Qed.
Lemma len_nest {A} (f : nat -> nat -> A) a b : length (nest2 a b f) = (b * a)%nat.
Proof.
  rewrite nest2_eq, (length_flat_map_const _ _ a), seq_length; [reflexivity|]. intros. rewrite map_length, seq_length. reflexivity.
Qed.
Lemma nth_skipn {A} (l : list A) k i d : nth i (skipn k l) d = nth (k + i) l d.
Proof. revert l. induction k as [|k IH]; intros l; [reflexivity|]. destruct l as [|x l]; [destruct i; reflexivity|]. apply IH. Qed.
Lemma map2_skipn {A B C} (f : A -> B -> C) l m k : map2 f (skipn k l) (skipn k m) = skipn k (map2 f l m).
Proof.
  revert l m. induction k as [|k IH]; intros l m; [reflexivity|]. destruct l as [|x l], m as [|y m]; cbn [skipn map2]; try reflexivity.
  - destruct (skipn k l); reflexivity.
  - apply IH.
Qed.
Lemma part2_cut p P w h : part2 (cut_prep p P) w h = skipn p (part2 P w h).
Proof. destruct P as [[xi eta] es]. unfold part2, cut_prep, einsum1. rewrite <- skipn_map, !map2_skipn. reflexivity. Qed.
Lemma app_split {A} (l l' m m' : list A) : length l = length m -> l ++ l' = m ++ m' -> l = m /\ l' = m'.
Proof.
  revert m. induction l as [|x l IH]; intros [|y m] H E; try discriminate; cbn in *; [auto|].
  injection E as -> E. injection H as H. destruct (IH m H E) as [-> ->]. auto.
Qed.
Section Local.
Variables (p : nat) (n : list R) (r0 r1 : rule).
Hypothesis Hn : length n = S p.
Notation g := (mkGrid2 n n r0 r1).
Lemma len_part_x h : length (part2 (prep2_x n n p p (fst r0)) (snd r0) h) = length (cells_t [p; p] [true; false]).
Proof. rewrite (part2_x_ok g p p Hn Hn h : part2 (prep2_x n n p p (fst r0)) (snd r0) h = _). apply map_length. Qed.
Lemma len_part_y h : length (part2 (prep2_y n n p p (fst r1)) (snd r1) h) = length (cells_t [p; p] [false; true]).
Proof. rewrite (part2_y_ok g p p Hn Hn h : part2 (prep2_y n n p p (fst r1)) (snd r1) h = _). apply map_length. Qed.
Definition int_cell (o : orient) F J v : cell -> R := match o with Inner => int2_inner g F J v | Outer => int2_outer g F J v end.
Lemma both_parts o F J v :
  tdisc_dx o p n r0 F J v = skipn p (map (int_cell o F J v) (cells_t [p; p] [true; false])) /\
  tdisc_dy o p n r1 F J v = map (int_cell o F J v) (cells_t [p; p] [false; true]).
Proof.
  unfold tdisc_dx, tdisc_dy. rewrite part2_cut. destruct o; cbn [int_cell].
  - pose proof (disc2_outer_ok g p p Hn Hn F J false v ltac:(discriminate)) as H. unfold disc2_outer, cells, edges2_outer in H.
    cbn [hx hy sx sy flat_map] in H. rewrite app_nil_r, map_app in H.
    apply app_split in H; [|rewrite len_part_y, map_length; reflexivity]. destruct H as [Hy Hx]. rewrite Hx, Hy. auto.
  - pose proof (disc2_inner_ok g p p Hn Hn F J false v ltac:(discriminate)) as H. unfold disc2_inner, cells, edges2_inner in H.
    cbn [hx hy sx sy flat_map] in H. rewrite app_nil_r, map_app in H.
    apply app_split in H; [|rewrite len_part_x, map_length; reflexivity]. destruct H as [Hx Hy]. rewrite Hx, Hy. auto.
Qed.
Lemma len_cells_x : length (cells_t [p; p] [true; false]) = (S p * p)%nat.
Proof. rewrite cells_nest2, len_nest. reflexivity. Qed.
Lemma len_cells_y : length (cells_t [p; p] [false; true]) = (p * S p)%nat.
Proof. rewrite cells_nest2, len_nest. reflexivity. Qed.
Lemma dx_len o F J v : length (tdisc_dx o p n r0 F J v) = (p * p)%nat.
Proof. rewrite (proj1 (both_parts o F J v)), skipn_length, map_length, len_cells_x. cbn. lia. Qed.
Lemma dy_len o F J v : length (tdisc_dy o p n r1 F J v) = (p * S p)%nat.
Proof. rewrite (proj2 (both_parts o F J v)), map_length, len_cells_y. lia. Qed.
Lemma nth_map_in {A} (f : A -> R) l k d : (k < length l)%nat -> nth k (map f l) 0 = f (nth k l d).
Proof. intros H. rewrite nth_indep with (d' := f d) by (rewrite map_length; exact H). apply map_nth. Qed.
Lemma dx_at o F J v i j : (i < p)%nat -> (1 <= j <= p)%nat ->
  nth (i + j * p - p) (tdisc_dx o p n r0 F J v) 0 = int_cell o F J v [(true, i); (false, j)].
Proof.
  intros Hi Hj. rewrite (proj1 (both_parts o F J v)), nth_skipn.
  assert (p <= j * p)%nat by (destruct j; cbn; lia). replace (p + (i + j * p - p))%nat with (i + j * p)%nat by lia.
  assert (j * p <= p * p)%nat by (apply Nat.mul_le_mono_r; lia).
  rewrite (nth_map_in (int_cell o F J v) _ _ []) by (rewrite len_cells_x; cbn; lia). f_equal. rewrite cells_nest2. cbn [size].
  exact (nth_nest (fun i j => [(true, i); (false, j)]) p (S p) i j [] ltac:(lia) ltac:(lia)).
Qed.
Lemma dy_at o F J v i j : (i <= p)%nat -> (j < p)%nat ->
  nth (i + j * (p + 1)) (tdisc_dy o p n r1 F J v) 0 = int_cell o F J v [(false, i); (true, j)].
Proof.
  intros Hi Hj. rewrite (proj2 (both_parts o F J v)). rewrite Nat.add_1_r.
  assert (j * S p + S p <= p * S p)%nat by (change (S j * S p <= p * S p)%nat || (replace (j * S p + S p)%nat with (S j * S p)%nat by (cbn; lia)); apply Nat.mul_le_mono_r; lia).
  rewrite (nth_map_in (int_cell o F J v) _ _ []) by (rewrite len_cells_y; lia). f_equal. rewrite cells_nest2. cbn [size].
  exact (nth_nest (fun i j => [(false, i); (true, j)]) (S p) p i j [] ltac:(lia) ltac:(lia)).
Qed.
Lemma tdisc1_len o M c F J v : length (tdisc1 o p n r0 r1 M c F J v) = tnb1 p.
Proof.
  unfold tdisc1. rewrite map_length, combine_length, seq_length, Nat.min_id.
  destruct o; rewrite app_length, dx_len, dy_len; unfold tnb1; lia.
Qed.
Lemma nth_signed (t : nat -> R) l k : (k < length l)%nat ->
  nth k (map (fun kx => t (fst kx) * snd kx) (combine (seq 0 (length l)) l)) 0 = t k * nth k l 0.
Proof.
  intros H. rewrite nth_map_in with (d := (0%nat, 0)) by (rewrite combine_length, seq_length; lia).
  rewrite combine_nth by apply seq_length. cbn [fst snd]. rewrite seq_nth by exact H. reflexivity.
Qed.
Lemma tdisc1_at o M c F J v e : edge_ok p e ->
  nth (Z.to_nat (dofe o p e)) (tdisc1 o p n r0 r1 M c F J v) 0 =
  IZR (transition o p M c (Z.to_nat (dofe o p e))) * int_edge o g F J v e.
Proof.
  intros He. pose proof (proj1 (numbers_edge o p) e He) as B. fold (dofe o p e) in B.
  unfold tdisc1.
  rewrite (nth_signed (fun k => IZR (transition o p M c k))).
  2:{ destruct o; rewrite app_length, dx_len, dy_len; unfold tnb1 in B; lia. }
  f_equal. replace (int_edge o g F J v e) with (int_cell o F J v (edge_cell e)) by (destruct o; reflexivity).
  destruct e as [i j|i j]; cbn [dofe edge_cell edge_ok] in *.
  - unfold tln_dx. destruct (Nat.eqb_spec j 0) as [E|_]; [lia|].
    assert (p <= j * p)%nat by (destruct j; cbn; lia).
    destruct o; unfold aF.
    + replace (Z.to_nat _) with (p * S p + (i + j * p - p))%nat by lia. rewrite app_nth2 by (rewrite dy_len; lia). rewrite dy_len.
      replace (p * S p + (i + j * p - p) - p * S p)%nat with (i + j * p - p)%nat by lia. apply dx_at; lia.
    + replace (Z.to_nat _) with (i + j * p - p)%nat by lia.
      assert (j * p <= p * p)%nat by (apply Nat.mul_le_mono_r; lia).
      rewrite app_nth1 by (rewrite dx_len; lia). apply dx_at; lia.
  - unfold tln_dy, aF. destruct o.
    + replace (Z.to_nat _) with (i + j * (p + 1))%nat by lia.
      assert (S j * S p <= p * S p)%nat by (apply Nat.mul_le_mono_r; lia).
      rewrite app_nth1 by (rewrite dy_len; lia). apply dy_at; lia.
    + replace (Z.to_nat _) with (p * p + (i + j * (p + 1)))%nat by lia. rewrite app_nth2 by (rewrite dx_len; lia). rewrite dx_len.
      replace (p * p + (i + j * (p + 1)) - p * p)%nat with (i + j * (p + 1))%nat by lia. apply dy_at; lia.
Qed.
Lemma tdisc2_len F J f : length (tdisc2 p n r0 r1 F J f) = tnb2 p.
Proof. unfold tdisc2, disc2_2. rewrite map_length, seq_length. reflexivity. Qed.
Lemma tdisc2_at F J f i j : (i < p)%nat -> (j < p)%nat ->
  nth (Z.to_nat (tln2 p i j)) (tdisc2 p n r0 r1 F J f) 0 = int2_2 g F J f (face_cell i j).
Proof.
  intros Hi Hj. unfold tdisc2. rewrite (disc2_2_ok g p p Hn Hn F J f : disc2_2 n n p p r0 r1 F J f = _).
  unfold cells, faces2. cbn [flat_map]. rewrite app_nil_r, cells_nest2. unfold tln2, aF.
  replace (Z.to_nat _) with (i + j * p)%nat by lia.
  assert (S j * p <= p * p)%nat by (apply Nat.mul_le_mono_r; lia).
  rewrite (nth_map_in (int2_2 g F J f) _ _ []) by (rewrite len_nest; cbn [size]; lia). f_equal.
  exact (nth_nest (fun i j => [(true, i); (true, j)]) p p i j [] ltac:(lia) ltac:(lia)).
Qed.
Lemma tdisc0_len F f : length (tdisc0 p n F f) = tnb0 p.
Proof.
  unfold tdisc0, mesh2. rewrite map_length, skipn_length.
  rewrite (length_flat_map_const _ _ (S p)), Hn by (intros; rewrite map_length; exact Hn). unfold tnb0. lia.
Qed.
Lemma mesh2_at i j : (i <= p)%nat -> (j <= p)%nat -> nth (i + j * S p) (mesh2 n n) (0, 0) = (nth i n 0, nth j n 0).
Proof.
  intros Hi Hj. assert (E : mesh2 n n = nest2 (S p) (S p) (fun i j => (nth i n 0, nth j n 0))).
  { rewrite nest2_eq. unfold mesh2. pose proof (nodes_seq n p Hn) as E.
    transitivity (flat_map (fun y => map (fun x => (x, y)) (map (nd n) (seq 0 (S p)))) (map (nd n) (seq 0 (S p)))); [rewrite <- E; reflexivity|].
    rewrite flat_map_map. apply flat_map_ext. intros y. rewrite map_map. reflexivity. }
  rewrite E. exact (nth_nest (fun i j => (nth i n 0, nth j n 0)) (S p) (S p) i j (0, 0) ltac:(lia) ltac:(lia)).
Qed.
Lemma tdisc0_at a b c f k : nth 0 n 0 = -1 -> node_ok p k ->
  nth (Z.to_nat (dofn p k)) (tdisc0 p n (tct_mapping a b c) f) 0 =
  through2 f (tct_mapping a b c) (fst (node_pos n k)) (snd (node_pos n k)).
Proof.
  intros H0 Hk. pose proof (proj1 (numbers_node p) k Hk) as B. fold (dofn p k) in B.
  pose proof (tdisc0_len (tct_mapping a b c) f) as L. unfold tdisc0 in *. rewrite map_length in L.
  rewrite (nth_map_in _ _ _ (0, 0)) by lia. rewrite nth_skipn.
  destruct k as [|i j]; cbn [dofn node_pos fst snd node_ok] in *.
  - unfold tln0. cbn [Nat.eqb Z.to_nat]. replace (p + 0)%nat with (p + 0 * S p)%nat by lia. rewrite mesh2_at by lia. cbn [fst snd].
    unfold at_map2, through2. rewrite !tct_x, !tct_y, H0. f_equal; field.
  - unfold tln0, aF. destruct (Nat.eqb_spec j 0) as [E|_]; [lia|].
    assert (p + 1 <= j * (p + 1))%nat by (destruct j; [lia|cbn; lia]).
    replace (p + Z.to_nat _)%nat with (i + j * S p)%nat by lia. rewrite mesh2_at by lia. reflexivity.
Qed.
End Local.
