(* The arrays of the discretization hold, in order, the integrals over the
   cells of the element. *)
From Coq Require Import Reals List Lia Lra Arith.
From Verif Require Import TfiModel TfiSpec CtModel CtSpec CtProofs RingSum SpaceSpec DiscModel DiscSpec.
Import ListNotations.
Open Scope R_scope.

(* ---------- lists in loop order ---------- *)
Definition nest {A} (I J K : nat) (f : nat -> nat -> nat -> A) : list A :=
  flat_map (fun k => flat_map (fun j => map (fun i => f i j k) (seq 0 I)) (seq 0 J)) (seq 0 K).

Lemma map_flat_map {A B C} (g : B -> C) (f : A -> list B) l : map g (flat_map f l) = flat_map (fun x => map g (f x)) l.
Proof. induction l as [|x l IH]; cbn [flat_map map]; [reflexivity|]. rewrite map_app, IH. reflexivity. Qed.
Lemma nest_map {A B} (g : A -> B) I J K f : map g (nest I J K f) = nest I J K (fun i j k => g (f i j k)).
Proof.
  unfold nest. rewrite map_flat_map. apply flat_map_ext. intros k. rewrite map_flat_map. apply flat_map_ext. intros j.
  apply map_map.
Qed.
Lemma map2_map {A B C D} (g : A -> B -> C) (f : D -> A) (h : D -> B) l :
  map2 g (map f l) (map h l) = map (fun x => g (f x) (h x)) l.
Proof. induction l as [|x l IH]; cbn [map map2]; [reflexivity|]. rewrite IH. reflexivity. Qed.
Lemma map2_app {A B C} (g : A -> B -> C) a b a' b' : length a = length b ->
  map2 g (a ++ a') (b ++ b') = map2 g a b ++ map2 g a' b'.
Proof.
  revert b. induction a as [|x a IH]; intros [|y b] H; try discriminate; [reflexivity|].
  cbn [app map2]. rewrite IH by (injection H; auto). reflexivity.
Qed.
Lemma map2_flat_map {A B C D} (g : B -> C -> D) (f : A -> list B) (h : A -> list C) l :
  (forall x, length (f x) = length (h x)) ->
  map2 g (flat_map f l) (flat_map h l) = flat_map (fun x => map2 g (f x) (h x)) l.
Proof. intros H. induction l as [|x l IH]; cbn [flat_map]; [reflexivity|]. rewrite map2_app, IH by apply H. reflexivity. Qed.
Lemma length_flat_map_same {A B C} (f : A -> list B) (h : A -> list C) l :
  (forall x, length (f x) = length (h x)) -> length (flat_map f l) = length (flat_map h l).
Proof. intros H. induction l as [|x l IH]; cbn [flat_map]; [reflexivity|]. rewrite !app_length, H, IH. reflexivity. Qed.
Lemma nest_map2 {A B C} (g : A -> B -> C) I J K f h :
  map2 g (nest I J K f) (nest I J K h) = nest I J K (fun i j k => g (f i j k) (h i j k)).
Proof.
  unfold nest. rewrite map2_flat_map.
  - apply flat_map_ext. intros k. rewrite map2_flat_map.
    + apply flat_map_ext. intros j. apply map2_map.
    + intros j. rewrite !map_length. reflexivity.
  - intros k. apply length_flat_map_same. intros j. rewrite !map_length. reflexivity.
Qed.
Lemma nest_ext {A} I J K (f h : nat -> nat -> nat -> A) :
  (forall i j k, (i < I)%nat -> (j < J)%nat -> (k < K)%nat -> f i j k = h i j k) -> nest I J K f = nest I J K h.
Proof.
  intros H. unfold nest. rewrite !flat_map_concat_map. f_equal. apply map_ext_in. intros k Hk. rewrite !flat_map_concat_map.
  f_equal. apply map_ext_in. intros j Hj. apply map_ext_in. intros i Hi. apply in_seq in Hi, Hj, Hk. apply H; lia.
Qed.

Lemma tile_S {A} (l : list A) n : tile l (S n) = l ++ tile l n.
Proof. reflexivity. Qed.
Lemma tile_seq {A} (l : list A) n a : tile l n = flat_map (fun _ => l) (seq a n).
Proof. revert a. induction n as [|n IH]; intros a; [reflexivity|]. rewrite tile_S, (IH (S a)). reflexivity. Qed.
Lemma tile_add {A} (l : list A) n m : tile l (n + m) = tile l n ++ tile l m.
Proof. induction n as [|n IH]; [reflexivity|]. cbn [plus]. rewrite !tile_S, IH, app_assoc. reflexivity. Qed.
Lemma tile_mul {A} (l : list A) n m : tile l (n * m) = tile (tile l n) m.
Proof.
  induction m as [|m IH]; [rewrite Nat.mul_0_r; reflexivity|]. rewrite Nat.mul_succ_r, Nat.add_comm, tile_add, IH, tile_S. reflexivity.
Qed.
Lemma repeat_add {A} (x : A) n m : repeat x (n + m) = repeat x n ++ repeat x m.
Proof. apply repeat_app. Qed.
Lemma repeat_seq {A} (x : A) n a : repeat x n = map (fun _ => x) (seq a n).
Proof. revert a. induction n as [|n IH]; intros a; [reflexivity|]. cbn [repeat seq map]. rewrite <- IH. reflexivity. Qed.
Lemma repeat_tile {A} (x : A) n m : repeat x (n * m) = tile (repeat x n) m.
Proof.
  induction m as [|m IH]; [rewrite Nat.mul_0_r; reflexivity|]. rewrite Nat.mul_succ_r, Nat.add_comm, repeat_add, IH. reflexivity.
Qed.
Lemma rep_map {A B} (f : B -> A) l n : rep (map f l) n = flat_map (fun j => repeat (f j) n) l.
Proof. unfold rep. rewrite !flat_map_concat_map, map_map. reflexivity. Qed.
Lemma map_rep {A B} (g : A -> B) l n : map g (rep l n) = rep (map g l) n.
Proof.
  unfold rep. rewrite map_flat_map, !flat_map_concat_map, map_map. f_equal. apply map_ext. intros x.
  induction n as [|n IH]; [reflexivity|]. cbn [repeat map]. rewrite IH. reflexivity.
Qed.
Lemma map_tile {A B} (g : A -> B) l n : map g (tile l n) = tile (map g l) n.
Proof. induction n as [|n IH]; [reflexivity|]. rewrite !tile_S, map_app, IH. reflexivity. Qed.
Lemma rep_rep {A} (l : list A) n m : rep (rep l n) m = rep l (n * m).
Proof.
  unfold rep. induction l as [|x l IH]; [reflexivity|]. cbn [flat_map]. rewrite flat_map_app, IH. f_equal.
  clear. induction n as [|n IH]; [reflexivity|]. cbn [repeat flat_map Nat.mul]. rewrite IH, <- repeat_add. reflexivity.
Qed.

Lemma nest_i {A} I J K (f : nat -> A) : tile (map f (seq 0 I)) (J * K) = nest I J K (fun i _ _ => f i).
Proof. rewrite tile_mul, (tile_seq _ K 0). unfold nest. rewrite (tile_seq _ J 0). reflexivity. Qed.
Lemma nest_j {A} I J K (f : nat -> A) : tile (rep (map f (seq 0 J)) I) K = nest I J K (fun _ j _ => f j).
Proof.
  rewrite (tile_seq _ K 0). unfold nest. apply flat_map_ext. intros k. rewrite rep_map. apply flat_map_ext. intros j.
  apply repeat_seq.
Qed.
Lemma nest_k {A} I J K (f : nat -> A) : rep (map f (seq 0 K)) (I * J) = nest I J K (fun _ _ k => f k).
Proof.
  rewrite rep_map. unfold nest. apply flat_map_ext. intros k. rewrite repeat_tile, (tile_seq _ J 0).
  apply flat_map_ext. intros j. apply repeat_seq.
Qed.
Lemma nest_const {A} I J K (x : A) : repeat x (I * J * K) = nest I J K (fun _ _ _ => x).
Proof.
  rewrite repeat_tile, repeat_tile, (tile_seq _ K 0). unfold nest. apply flat_map_ext. intros k. rewrite (tile_seq _ J 0).
  apply flat_map_ext. intros j. apply repeat_seq.
Qed.
Lemma nest_rep_k {A} I J K (f : nat -> A) : rep (rep (map f (seq 0 K)) I) J = nest I J K (fun _ _ k => f k).
Proof. rewrite rep_rep. apply nest_k. Qed.

Lemma list_nth (l : list R) : l = map (nd l) (seq 0 (length l)).
Proof.
  unfold nd. induction l as [|x l IH]; [reflexivity|]. cbn [length seq map nth]. f_equal. rewrite <- seq_shift, map_map. exact IH.
Qed.
Lemma nodes_seq n p : length n = S p -> n = map (nd n) (seq 0 (S p)).
Proof. intros H. rewrite <- H. apply list_nth. Qed.
Lemma diffs_seq n p : length n = S p -> diffs n = map (fun i => nd n (S i) - nd n i) (seq 0 p).
Proof.
  unfold diffs, nd. revert p. induction n as [|x n IH]; intros p H; [discriminate|]. injection H as H. cbn [tl].
  destruct n as [|y n]; [subst p; reflexivity|]. destruct p as [|p]; [discriminate|]. cbn [map2 seq map nth].
  f_equal. rewrite <- seq_shift, map_map. exact (IH p H).
Qed.
Lemma init_seq n p : length n = S p -> init n = map (nd n) (seq 0 p).
Proof.
  unfold init, nd. revert p. induction n as [|x n IH]; intros p H; [discriminate|]. injection H as H.
  destruct n as [|y n]; [subst p; reflexivity|]. destruct p as [|p]; [discriminate|]. cbn [removelast seq map nth].
  f_equal. rewrite <- seq_shift, map_map. exact (IH p H).
Qed.

Lemma reshapeF_concat (L : list (list R)) Q n : (forall c, In c L -> length c = Q) -> length L = n ->
  reshapeF (concat L) Q n = L.
Proof.
  unfold reshapeF. intros H Hn. subst n. revert H. induction L as [|c L IH]; intros H; [reflexivity|].
  cbn [length seq map concat]. assert (Hc := H c (or_introl eq_refl)). f_equal.
  - cbn [Nat.mul]. cbn [skipn]. rewrite <- Hc, firstn_app, firstn_all, Nat.sub_diag. cbn [firstn]. apply app_nil_r.
  - rewrite <- seq_shift, map_map. rewrite <- (IH (fun d Hd => H d (or_intror Hd))) at 2. apply map_ext. intros k.
    f_equal. cbn [Nat.mul]. rewrite <- Hc at 1. rewrite skipn_app, skipn_all2 by lia. cbn [app]. f_equal. lia.
Qed.
Lemma concat_tile (L : list (list R)) n : concat (map (fun c => tile c n) L) = concat (rep L n).
Proof.
  unfold tile, rep. induction L as [|c L IH]; [reflexivity|]. cbn [map concat flat_map]. rewrite IH, concat_app. reflexivity.
Qed.
Lemma reshape_rep (L : list (list R)) Q n m : (forall c, In c L -> length c = Q) -> length L = m ->
  reshapeF (concat (map (fun c => tile c n) L)) Q (n * m) = rep L n.
Proof.
  intros H Hm. rewrite concat_tile. apply reshapeF_concat.
  - intros c Hc. unfold rep in Hc. apply in_flat_map in Hc. destruct Hc as (d & Hd & Hc). apply repeat_spec in Hc. subst. auto.
  - subst m. unfold rep. clear. induction L as [|c L IH]; [cbn; lia|]. cbn [flat_map]. rewrite app_length, repeat_length, IH. cbn [length]. lia.
Qed.

(* ---------- the three parts of a 1-form ---------- *)
Lemma map_repeat {A B} (f : A -> B) x n : map f (repeat x n) = repeat (f x) n.
Proof. induction n as [|n IH]; [reflexivity|]. cbn [repeat map]. rewrite IH. reflexivity. Qed.
Lemma quad_eq {A B C D} (a a' : A) (b b' : B) (c c' : C) (d d' : D) : a = a' -> b = b' -> c = c' -> d = d' ->
  (a, b, c, d) = (a', b', c', d').
Proof. intros -> -> -> ->. reflexivity. Qed.
Definition st (n : list R) (i : nat) (x : R) : R := (x + 1) * (nd n (S i) - nd n i) / 2 + nd n i.

Section Nodes.
Variables (n0 n1 n2 : list R) (p0 p1 p2 : nat).
Hypotheses (H0 : length n0 = S p0) (H1 : length n1 = S p1) (H2 : length n2 = S p2).

Lemma prep_x_ok q : prep_x n0 n1 n2 p0 p1 p2 q =
  (nest p0 (S p1) (S p2) (fun i _ _ => map (st n0 i) q),
   nest p0 (S p1) (S p2) (fun _ j _ => repeat (nd n1 j) (length q)),
   nest p0 (S p1) (S p2) (fun _ _ k => repeat (nd n2 k) (length q)),
   nest p0 (S p1) (S p2) (fun i _ _ => nd n0 (S i) - nd n0 i)).
Proof.
  unfold prep_x. rewrite (diffs_seq n0 p0 H0), (init_seq n0 p0 H0), !nest_i, !Nat.add_1_r.
  replace (S p1 * S p2 * p0)%nat with (p0 * S p1 * S p2)%nat by ring.
  rewrite nest_const, nest_map. unfold colop. rewrite nest_map2, nest_map, nest_map2.
  apply quad_eq; [| | |reflexivity].
  - apply nest_ext. intros i j k _ _ _. rewrite !map_map. reflexivity.
  - rewrite reshape_rep.
    + unfold rows. rewrite (nodes_seq n1 p1 H1) at 1. rewrite map_map, nest_j. reflexivity.
    + intros c Hc. unfold rows in Hc. apply in_map_iff in Hc. destruct Hc as (x & <- & _). apply repeat_length.
    + unfold rows. rewrite map_length. exact H1.
  - unfold rows. rewrite (nodes_seq n2 p2 H2) at 1. rewrite nest_k, nest_map. reflexivity.
Qed.
Lemma prep_y_ok q : prep_y n0 n1 n2 p0 p1 p2 q =
  (nest (S p0) p1 (S p2) (fun i _ _ => repeat (nd n0 i) (length q)),
   nest (S p0) p1 (S p2) (fun _ j _ => map (st n1 j) q),
   nest (S p0) p1 (S p2) (fun _ _ k => repeat (nd n2 k) (length q)),
   nest (S p0) p1 (S p2) (fun _ j _ => nd n1 (S j) - nd n1 j)).
Proof.
  unfold prep_y. rewrite (diffs_seq n1 p1 H1), (init_seq n1 p1 H1), !Nat.add_1_r, !nest_j.
  rewrite nest_const, nest_map. unfold colop. rewrite nest_map2, nest_map, nest_map2.
  apply quad_eq; [| | |reflexivity].
  - unfold rows. rewrite (nodes_seq n0 p0 H0) at 1. rewrite nest_i, nest_map. reflexivity.
  - apply nest_ext. intros i j k _ _ _. rewrite !map_map. reflexivity.
  - unfold rows. rewrite (nodes_seq n2 p2 H2) at 1. rewrite (Nat.mul_comm p1), nest_k, nest_map. reflexivity.
Qed.
Lemma prep_z_ok q : prep_z n0 n1 n2 p0 p1 p2 q =
  (nest (S p0) (S p1) p2 (fun i _ _ => repeat (nd n0 i) (length q)),
   nest (S p0) (S p1) p2 (fun _ j _ => repeat (nd n1 j) (length q)),
   nest (S p0) (S p1) p2 (fun _ _ k => map (st n2 k) q),
   nest (S p0) (S p1) p2 (fun _ _ k => nd n2 (S k) - nd n2 k)).
Proof.
  unfold prep_z. rewrite (diffs_seq n2 p2 H2), (init_seq n2 p2 H2), !Nat.add_1_r, !nest_rep_k, nest_k.
  rewrite nest_const, nest_map. unfold colop. rewrite nest_map2, nest_map, nest_map2.
  apply quad_eq; [| | |reflexivity].
  - unfold rows. rewrite (nodes_seq n0 p0 H0) at 1. rewrite nest_i, nest_map. reflexivity.
  - unfold rows. rewrite (nodes_seq n1 p1 H1) at 1. rewrite nest_j, nest_map. reflexivity.
  - apply nest_ext. intros i j k _ _ _. rewrite !map_map. reflexivity.
Qed.
End Nodes.
