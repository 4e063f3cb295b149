(* The fields of sums and multiples. *)
From Coq Require Import Reals List Lia Lra Arith Bool ZArith.
From Verif Require Import TfiModel TfiSpec CtModel CtSpec RingSum SpaceSpec DiscModel DiscSpec DiscProofs2 Disc2Model Disc2Spec ReconModel ReconSpec ReconProofs TriModel TriSpec TdiscSpec TreconSpec Rec2Model Rec2Spec.
From Verif Require Import FarModel FarSpec FarProofs ErrModel ErrSpec.
Import ListNotations.
Open Scope R_scope.
Lemma entrywise_map2 op c d s : entrywise op c d s -> length c = length d /\ s = map2 op c d.
Proof.
  intros E. assert (L : length c = length d) by (destruct E as (P & Q & _); congruence). split; [exact L|]. apply (entrywise_one op c d); [exact E|]. apply map2_entrywise. exact L.
Qed.
Lemma multiple_entry r c d : multiple r c d -> entrywise (fun x y => r * x + 0 * y) c c d.
Proof. intros (L & E). split; [exact L|]. split; [exact L|]. intros i x y X Y. rewrite (E i x X). f_equal. ring. Qed.
Section L.
Variables (op : R -> R -> R) (p q : R).
Hypothesis OP : forall x y, op x y = p * x + q * y.
Lemma lin_sum {K} (sel : K -> bool) (w : K -> R) ks c d : length c = length d ->
  rsum (combine ks (map2 op c d)) (fun z => if sel (fst z) then snd z * w (fst z) else 0) =
  p * rsum (combine ks c) (fun z => if sel (fst z) then snd z * w (fst z) else 0) + q * rsum (combine ks d) (fun z => if sel (fst z) then snd z * w (fst z) else 0).
Proof.
  revert c d. induction ks as [|k ks IH]; intros c d L; [unfold rsum; cbn; ring|]. destruct c as [|x c], d as [|y d]; try discriminate; [unfold rsum; cbn; ring|].
  cbn [map2 combine]. rewrite !rsum_cons, IH by (cbn in L; lia). cbn [fst snd]. destruct (sel k); [rewrite OP|]; ring.
Qed.
Lemma lin_expand2 s ts sel c d x y : length c = length d -> expand2 s ts sel (map2 op c d) x y = p * expand2 s ts sel c x y + q * expand2 s ts sel d x y.
Proof. intros L. unfold expand2. apply (lin_sum sel (fun k => fn2 s k x y)). exact L. Qed.
Lemma lin_expand s ts sel c d x y z : length c = length d -> expand s ts sel (map2 op c d) x y z = p * expand s ts sel c x y z + q * expand s ts sel d x y z.
Proof. intros L. unfold expand. apply (lin_sum sel (fun k => cell_fn s k x y z)). exact L. Qed.
Lemma lin_nth i c d : length c = length d -> nth i (map2 op c d) 0 = p * nth i c 0 + q * nth i d 0.
Proof.
  revert c d. induction i as [|i IH]; intros [|x c] [|y d] L; try discriminate; cbn [map2 nth]; try ring; [apply OP|]. apply IH. cbn in L. lia.
Qed.
Lemma lin_tsum2 P a b W V U x y : (forall i j, U i j = p * W i j + q * V i j) -> tsum2 P a b U x y = p * tsum2 P a b W x y + q * tsum2 P a b V x y.
Proof.
  intros H. unfold tsum2. assert (G : forall n (f g h : nat -> R), (forall i, h i = p * f i + q * g i) -> rsum (seq 0 n) h = p * rsum (seq 0 n) f + q * rsum (seq 0 n) g).
  { intros n f g h E. generalize 0%nat. induction n as [|n IH]; intros k; [unfold rsum; cbn; ring|]. cbn [seq]. rewrite !rsum_cons, IH, E. ring. }
  apply G. intros j. apply G. intros i. rewrite H. ring.
Qed.
Lemma two_entries v0 v1 w0 w1 u : entrywise op [v0; v1] [w0; w1] u -> u = [op v0 w0; op v1 w1].
Proof. intros E. apply entrywise_map2 in E as [_ ->]. reflexivity. Qed.
Lemma one_entry v0 w0 u : entrywise op [v0] [w0] u -> u = [op v0 w0].
Proof. intros E. apply entrywise_map2 in E as [_ ->]. reflexivity. Qed.
Lemma three_entries v0 v1 v2 w0 w1 w2 u : entrywise op [v0; v1; v2] [w0; w1; w2] u -> u = [op v0 w0; op v1 w1; op v2 w2].
Proof. intros E. apply entrywise_map2 in E as [_ ->]. reflexivity. Qed.
Lemma lin_tpulls1 o J v0 v1 w0 w1 f g h : (forall d, h d = p * f d + q * g d) -> tpulls1 o J (v0, v1) f -> tpulls1 o J (w0, w1) g -> tpulls1 o J (op v0 w0, op v1 w1) h.
Proof.
  intros H F G d. specialize (F d). specialize (G d). rewrite H, <- F, <- G, !OP. unfold dot2, cross2, comp, mcol. destruct o; destruct d; cbn; ring.
Qed.
Lemma lin_fields2 k s c d e J x y v w u : entrywise op c d e -> entrywise op v w u -> fields2 k s c J x y v -> fields2 k s d J x y w -> fields2 k s e J x y u.
Proof.
  intros E Ev V W. apply entrywise_map2 in E as [L ->]. unfold fields2 in *. destruct k as [|o|].
  - destruct v as [|a [|b l]], w as [|a' [|b' l']]; try contradiction. apply one_entry in Ev as ->. rewrite OP, V, W. symmetry. apply lin_expand2. exact L.
  - destruct v as [|a [|b [|b0 l]]], w as [|a' [|b' [|b0' l']]]; try contradiction. apply two_entries in Ev as ->. refine (lin_tpulls1 _ _ _ _ _ _ _ _ _ _ V W). intros b0. apply lin_expand2. exact L.
  - destruct v as [|a [|b l]], w as [|a' [|b' l']]; try contradiction. apply one_entry in Ev as ->. unfold field2, tpulls2 in *. unfold r2hat2. rewrite lin_expand2 by exact L. unfold r2hat2 in V, W. rewrite <- V, <- W, OP. ring.
Qed.
Lemma lin_fieldst k P M n c d e J x y v w u : entrywise op c d e -> entrywise op v w u -> fieldst k P M n c J x y v -> fieldst k P M n d J x y w -> fieldst k P M n e J x y u.
Proof.
  intros E Ev V W. apply entrywise_map2 in E as [L ->]. unfold fieldst in *. destruct k as [|o|].
  - destruct v as [|a [|b l]], w as [|a' [|b' l']]; try contradiction. apply one_entry in Ev as ->. rewrite OP, V, W. symmetry. apply lin_tsum2. intros i j. apply lin_nth. exact L.
  - destruct v as [|a [|b [|b0 l]]], w as [|a' [|b' [|b0' l']]]; try contradiction. apply two_entries in Ev as ->. refine (lin_tpulls1 _ _ _ _ _ _ _ _ _ _ V W). intros b0. unfold that1.
    destruct b0; apply lin_tsum2; intros i j; unfold edge_val; try destruct j; rewrite ?lin_nth by exact L; ring.
  - destruct v as [|a [|b l]], w as [|a' [|b' l']]; try contradiction. apply one_entry in Ev as ->. unfold tpulls2 in *. unfold that2 in *. rewrite (lin_tsum2 P true true (face_val (pdeg P) c) (face_val (pdeg P) d)) by (intros i j; apply lin_nth; exact L).
    rewrite <- V, <- W, OP. ring.
Qed.
Lemma lin_fields3 k s c d e J x y z v w u : entrywise op c d e -> entrywise op v w u -> fields3 k s c J x y z v -> fields3 k s d J x y z w -> fields3 k s e J x y z u.
Proof.
  intros E Ev V W. apply entrywise_map2 in E as [L ->]. unfold fields3 in *. destruct k.
  - destruct v as [|a [|b l]], w as [|a' [|b' l']]; try contradiction. apply one_entry in Ev as ->. rewrite OP, V, W. symmetry. apply lin_expand. exact L.
  - destruct v as [|a [|b [|b0 [|b1 l]]]], w as [|a' [|b' [|b0' [|b1' l']]]]; try contradiction. apply three_entries in Ev as ->.
    intros i. specialize (V i). specialize (W i). unfold hat1 in *. rewrite lin_expand by exact L. rewrite <- V, <- W, !OP. destruct (J x y z) as [[[[? ?] ?] [[? ?] ?]] [[? ?] ?]]; destruct i; unfold dot, csum, get, col, ent; cbn; ring.
  - destruct v as [|a [|b [|b0 [|b1 l]]]], w as [|a' [|b' [|b0' [|b1' l']]]]; try contradiction. apply three_entries in Ev as ->.
    intros i. specialize (V i). specialize (W i). unfold hat2 in *. rewrite lin_expand by exact L. rewrite <- V, <- W, !OP. destruct (J x y z) as [[[[? ?] ?] [[? ?] ?]] [[? ?] ?]]; destruct i; unfold dot, cross, csum, get, col, ent, next; cbn; ring.
  - destruct v as [|a [|b l]], w as [|a' [|b' l']]; try contradiction. apply one_entry in Ev as ->. unfold pulls3, hat3 in *. rewrite lin_expand by exact L. rewrite <- V, <- W, OP. ring.
Qed.
End L.
Theorem fields_linear op p q : (forall x y, op x y = p * x + q * y) ->
  (forall k s c d e J x y v w u, entrywise op c d e -> entrywise op v w u -> fields2 k s c J x y v -> fields2 k s d J x y w -> fields2 k s e J x y u) /\
  (forall k P M n c d e J x y v w u, entrywise op c d e -> entrywise op v w u -> fieldst k P M n c J x y v -> fieldst k P M n d J x y w -> fieldst k P M n e J x y u) /\
  (forall k s c d e J x y z v w u, entrywise op c d e -> entrywise op v w u -> fields3 k s c J x y z v -> fields3 k s d J x y z w -> fields3 k s e J x y z u).
Proof. intros OP. split; [|split]; intros; [eapply lin_fields2|eapply lin_fieldst|eapply lin_fields3]; eassumption. Qed.
Theorem fields_multiple r :
  (forall k s c d J x y v w, multiple r c d -> multiple r v w -> fields2 k s c J x y v -> fields2 k s d J x y w) /\
  (forall k P M n c d J x y v w, multiple r c d -> multiple r v w -> fieldst k P M n c J x y v -> fieldst k P M n d J x y w) /\
  (forall k s c d J x y z v w, multiple r c d -> multiple r v w -> fields3 k s c J x y z v -> fields3 k s d J x y z w).
Proof.
  destruct (fields_linear (fun x y => r * x + 0 * y) r 0 (fun x y => eq_refl)) as (A & B & C). split; [|split]; intros *; intros E F V.
  - exact (A _ _ _ _ _ _ _ _ _ _ _ (multiple_entry _ _ _ E) (multiple_entry _ _ _ F) V V).
  - exact (B _ _ _ _ _ _ _ _ _ _ _ _ _ (multiple_entry _ _ _ E) (multiple_entry _ _ _ F) V V).
  - exact (C _ _ _ _ _ _ _ _ _ _ _ _ (multiple_entry _ _ _ E) (multiple_entry _ _ _ F) V V).
Qed.
