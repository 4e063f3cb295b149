(* Errors on triangles and in 3D that vanish. *)
From Coq Require Import Reals List Lia Lra Arith ZArith Bool Permutation.
From Verif Require Import TfiModel TfiSpec CtModel CtSpec RingSum SpaceSpec SpaceProofs DiscModel DiscSpec DiscProofs DiscProofs2 DiscProofs3 Disc2Model Disc2Spec Disc2Proofs.
From Verif Require Import ReconModel ReconSpec ReconProofs ReconProofs2 ReconProofs3 ReconProofs4 ReconProofs5.
From Verif Require Import TriModel TriSpec TriProofs TdiscModel TdiscSpec TreconModel TreconSpec TreconProofs TreconProofs3 TreconProofs4 Rec2Model Rec2Spec Rec2Proofs Rec2Proofs2 Rec2Proofs3 Rec2Proofs4.
From Verif Require TrfProofs4.
From Verif Require Import ErrModel ErrSpec ErrProofs ErrProofs2.
Import ListNotations.
Open Scope R_scope.

(* ---------- triangles ---------- *)
Definition vt (k : kind2) (P : Poly1) (M : smap) (e : FormT) (x y : R) : list R :=
  match k with
  | K0 => [that0 P (ft_c e) x y]
  | K1 o => [fst (val1 o P M (ft_cell e) (ft_J e) (ft_c e) (x, y)); snd (val1 o P M (ft_cell e) (ft_J e) (ft_c e) (x, y))]
  | K2 => [that2 P (ft_c e) x y / det2 (ft_J e x y)]
  end.
Lemma vt_fields k P M r0 r1 e : goodt r0 r1 e -> on_grid2 (fst r0) (fst r1) (fun x y => fieldst k P M (ft_cell e) (ft_c e) (ft_J e) x y (vt k P M e x y)).
Proof.
  intros N x y X Y. destruct k as [|o|]; unfold fieldst, vt.
  - reflexivity.
  - rewrite <- surjective_pairing. unfold val1, tiJ, at2. cbn [fst snd]. apply (value_pulls o (ft_J e x y) (fun d => that1 o P M (ft_cell e) (ft_c e) d x y)). apply N; assumption.
  - unfold tpulls2. field. apply (N x y X Y).
Qed.
Lemma fieldst_one k P M e c J x y v w : det2 (J x y) <> 0 -> fieldst k P M e c J x y v -> fieldst k P M e c J x y w -> v = w.
Proof.
  intros N V W. unfold fieldst in V, W. destruct k as [|o|].
  - destruct v as [|a [|b l]], w as [|a' [|b' l']]; try contradiction. congruence.
  - destruct v as [|a [|b [|c0 l]]], w as [|a' [|b' [|c0' l']]]; try contradiction. assert (E : (a, b) = (a', b')) by (eapply pulls1_inj; eassumption). injection E as -> ->. reflexivity.
  - destruct v as [|a [|b l]], w as [|a' [|b' l']]; try contradiction. unfold tpulls2 in V, W. f_equal. rewrite <- W in V. apply (Rmult_eq_reg_r (det2 (J x y))); assumption.
Qed.
Lemma fieldst_len k P M e c J x y v : fieldst k P M e c J x y v -> length v = num2 k.
Proof. unfold fieldst. destruct k as [|o|]; destruct v as [|a [|b [|d l]]]; intros H; try contradiction; reflexivity. Qed.
Theorem errt_zero k P M r0 r1 m fs cores : (0 < m)%nat -> rule_ok r0 -> rule_ok r1 -> weights_pos r0 -> weights_pos r1 -> length fs = num2 k ->
  (forall e, In e (concat cores) -> rightt r0 r1 e) ->
  (errt k P M r0 r1 (2 * m) fs cores = Some 0 <->
   forall e, In e (concat cores) -> on_grid2 (fst r0) (fst r1) (fun x y => fieldst k P M (ft_cell e) (ft_c e) (ft_J e) x y (exact2 fs (ft_map e) x y))).
Proof.
  intros Hm R0 R1 W0 W1 L G.
  assert (Gd : forall e, In e (concat cores) -> goodt r0 r1 e).
  { intros e I x y X Y. pose proof (G e I x y X Y) as Q. cbv beta in Q. lra. }
  pose proof (errt_ok k P M r0 r1 (2 * m) fs cores (vt k P M) ltac:(lia) R0 R1 Gd (fun e I => vt_fields k P M r0 r1 e (Gd e I))) as H.
  assert (T : forall e, In e (concat cores) -> on_grid2 (fst r0) (fst r1) (fun x y => 0 <= det2 (ft_J e x y) * pow_diff (2 * m) (vt k P M e x y) (exact2 fs (ft_map e) x y))).
  { intros e I x y X Y. apply Rmult_le_pos; [left; exact (G e I x y X Y)|apply pow_diff_pos]. }
  rewrite (root_zero (2 * m) _ _ ltac:(lia) (rsum_nonneg _ _ (fun e I => tquad_nonneg r0 r1 W0 W1 _ (T e I))) H).
  rewrite (sum_null _ _ (fun e I => tquad_nonneg r0 r1 W0 W1 _ (T e I))). split.
  - intros Z e I x y X Y. pose proof (tquad_null r0 r1 R0 R1 W0 W1 _ (T e I) (Z e I) x y X Y) as Q. cbv beta in Q.
    pose proof (G e I x y X Y) as Ps. cbv beta in Ps. apply Rmult_integral in Q as [Q|Q]; [lra|].
    pose proof (vt_fields k P M r0 r1 e (Gd e I) x y X Y) as V. cbv beta in V. apply pow_diff_null in Q; [rewrite <- Q; exact V|].
    rewrite (fieldst_len _ _ _ _ _ _ _ _ _ V). unfold exact2. rewrite map_length. symmetry. exact L.
  - intros Z e I. rewrite (tquad_ext r0 r1 _ (fun _ _ => 0)).
    + unfold tquad. apply ReconProofs.rsum_zero'. intros a _. apply ReconProofs.rsum_zero'. intros b _. ring.
    + intros x y X Y. rewrite (fieldst_one k P M (ft_cell e) (ft_c e) (ft_J e) x y (vt k P M e x y) (exact2 fs (ft_map e) x y)).
      * rewrite pow_diff_self by lia. ring.
      * exact (Gd e I x y X Y).
      * apply (vt_fields k P M r0 r1 e (Gd e I)); assumption.
      * apply (Z e I); assumption.
Qed.

(* ---------- 3D ---------- *)
Definition v3 (k : kind3) (s : Space3) (e : Form3) (x y z : R) : list R :=
  let w1 := value1 (f3_orth e) (iJ_at (f3_J e) (x, y, z)) (hats (hat1 s (f3_c e)) (x, y, z)) in
  let w2 := value2 (f3_orth e) (iJ_at (f3_J e) (x, y, z)) (hats (hat2 s (f3_c e)) (x, y, z)) in
  match k with
  | V0 => [hat0 s (f3_c e) x y z]
  | V1 => [fst (fst w1); snd (fst w1); snd w1]
  | V2 => [fst (fst w2); snd (fst w2); snd w2]
  | V3 => [hat3 s (f3_c e) x y z / det3 (f3_J e x y z)]
  end.
Lemma triple_eq (v : vec) : (fst (fst v), snd (fst v), snd v) = v.
Proof. destruct v as [[a b] c]. reflexivity. Qed.
Lemma v3_fields k s m e : good3 k s m e -> on_grid m (fun x y z => fields3 k s (f3_c e) (f3_J e) x y z (v3 k s e x y z)).
Proof.
  intros (N & D & _) x y z X Y Z. destruct k; unfold fields3, v3; cbv zeta; rewrite ?triple_eq.
  - reflexivity.
  - apply (pulls_ext1 _ _ _ _ (get_hats (hat1 s (f3_c e)) x y z)). apply value1_pulls; [apply N; assumption|]. intros E. apply (D E); assumption.
  - apply (pulls_ext2 _ _ _ _ (get_hats (hat2 s (f3_c e)) x y z)). apply value2_pulls; [apply N; assumption|]. intros E. apply (D E); assumption.
  - unfold pulls3. field. apply (N x y z X Y Z).
Qed.
Lemma fields3_one k s c J x y z v w : det3 (J x y z) <> 0 -> fields3 k s c J x y z v -> fields3 k s c J x y z w -> v = w.
Proof.
  intros N V W. unfold fields3 in V, W. destruct k.
  - destruct v as [|a [|b l]], w as [|a' [|b' l']]; try contradiction. congruence.
  - destruct v as [|a [|b [|d [|f l]]]], w as [|a' [|b' [|d' [|f' l']]]]; try contradiction.
    assert (E : (a, b, d) = (a', b', d')) by (eapply pulls1_one; eassumption). injection E as -> -> ->. reflexivity.
  - destruct v as [|a [|b [|d [|f l]]]], w as [|a' [|b' [|d' [|f' l']]]]; try contradiction.
    assert (E : (a, b, d) = (a', b', d')) by (eapply pulls2_one; eassumption). injection E as -> -> ->. reflexivity.
  - destruct v as [|a [|b l]], w as [|a' [|b' l']]; try contradiction. unfold pulls3 in V, W. f_equal. rewrite <- W in V. apply (Rmult_eq_reg_r (det3 (J x y z))); assumption.
Qed.
Lemma fields3_len k s c J x y z v : fields3 k s c J x y z v -> length v = num3 k.
Proof. unfold fields3. destruct k; destruct v as [|a [|b [|d [|f l]]]]; intros H; try contradiction; reflexivity. Qed.
Theorem err3_zero k s q m fs cores : (0 < m)%nat -> rules_ok q -> positive_weights q -> length fs = num3 k ->
  (forall e, In e (concat cores) -> right3 (qmesh q) e /\ good3 k s (qmesh q) e) ->
  (err3 k s q (2 * m) fs cores = Some 0 <->
   forall e, In e (concat cores) -> on_grid (qmesh q) (fun x y z => fields3 k s (f3_c e) (f3_J e) x y z (exact3 fs (f3_map e) x y z))).
Proof.
  intros Hm Rq W L G. assert (Gd := fun e I => proj2 (G e I)).
  pose proof (err3_ok k s q (2 * m) fs cores (v3 k s) ltac:(lia) Rq Gd (fun e I => v3_fields k s (qmesh q) e (Gd e I))) as H.
  assert (T : forall e, In e (concat cores) -> on_grid (qmesh q) (fun x y z => 0 <= det3 (f3_J e x y z) * pow_diff (2 * m) (v3 k s e x y z) (exact3 fs (f3_map e) x y z))).
  { intros e I x y z X Y Z. apply Rmult_le_pos; [left; exact (proj1 (G e I) x y z X Y Z)|apply pow_diff_pos]. }
  rewrite (root_zero (2 * m) _ _ ltac:(lia) (rsum_nonneg _ _ (fun e I => quad_nonneg q W _ (T e I))) H).
  rewrite (sum_null _ _ (fun e I => quad_nonneg q W _ (T e I))). split.
  - intros Z e I x y z X Y Zz. pose proof (quad_null q Rq W _ (T e I) (Z e I) x y z X Y Zz) as Q. cbv beta in Q.
    pose proof (proj1 (G e I) x y z X Y Zz) as Ps. cbv beta in Ps. apply Rmult_integral in Q as [Q|Q]; [lra|].
    pose proof (v3_fields k s (qmesh q) e (Gd e I) x y z X Y Zz) as V. cbv beta in V. apply pow_diff_null in Q; [rewrite <- Q; exact V|].
    rewrite (fields3_len _ _ _ _ _ _ _ _ V). unfold exact3. rewrite map_length. symmetry. exact L.
  - intros Z e I. rewrite (TrfProofs4.quad3_ext q _ (fun _ _ _ => 0)).
    + unfold quad3. apply ReconProofs.rsum_zero'. intros a _. apply ReconProofs.rsum_zero'. intros b _. apply ReconProofs.rsum_zero'. intros d _. ring.
    + intros x y z X Y Zz. rewrite (fields3_one k s (f3_c e) (f3_J e) x y z (v3 k s e x y z) (exact3 fs (f3_map e) x y z)).
      * rewrite pow_diff_self by lia. ring.
      * exact (proj1 (Gd e I) x y z X Y Zz).
      * apply (v3_fields k s (qmesh q) e (Gd e I)); assumption.
      * apply (Z e I); assumption.
    + exact Rq.
Qed.
Theorem err3_discretized k s g q m fs cores : (0 < m)%nat -> rules_ok q -> positive_weights q ->
  on_grid (qmesh q) (fun x y z => in_ref x /\ in_ref y /\ in_ref z) -> basis3_of g s -> rules_exact g s -> grid_ok g ->
  (forall e, In e (concat cores) -> right3 (qmesh q) e /\ (f3_orth e = true -> forall x y z, diagonal (f3_J e x y z)) /\ discretized3 k g s fs e /\
     exists c, length c = length (cells3 k s) /\ in_element (fun x y z => fields3 k s c (f3_J e) x y z (exact3 fs (f3_map e) x y z))) ->
  err3 k s q (2 * m) fs cores = Some 0.
Proof.
  intros M Rq W IR B X GO H. destruct (concat cores) as [|e0 l] eqn:EC.
  - assert (RT := err3_ok k s q (2 * m) fs cores (v3 k s) ltac:(lia) Rq). rewrite EC in RT. specialize (RT (fun e I => match I with end) (fun e I => match I with end)).
    apply (root_zero (2 * m) _ _ ltac:(lia) (Rle_refl 0)) in RT. apply RT. reflexivity.
  - assert (L : length fs = num3 k).
    { destruct (H e0 (or_introl eq_refl)) as (_ & _ & D & _). unfold discretized3 in D. destruct k; destruct fs as [|a [|b [|d [|f fs]]]]; try contradiction; reflexivity. }
    rewrite <- EC in H. clear EC e0 l.
    assert (E : forall e, In e (concat cores) -> length (f3_c e) = length (cells3 k s) /\ in_element (fun x y z => fields3 k s (f3_c e) (f3_J e) x y z (exact3 fs (f3_map e) x y z))).
    { intros e I. destruct (H e I) as (P & O & D & c & Lc & F).
      assert (E : f3_c e = c).
      { unfold discretized3 in D. unfold cells3 in Lc. unfold fields3 in F. destruct k.
        - destruct fs as [|f [|b fs]]; try contradiction. rewrite D. apply (disc_recon0 g s GO B X); assumption.
        - destruct fs as [|a [|b [|d [|f fs]]]]; try contradiction; rewrite D. apply (disc_recon1 g s GO B X); assumption.
        - destruct fs as [|a [|b [|d [|f fs]]]]; try contradiction; rewrite D. apply (disc_recon2 g s GO B X); assumption.
        - destruct fs as [|f [|b fs]]; try contradiction. rewrite D. apply (disc_recon3 g s GO B X); assumption. }
      rewrite E. split; assumption. }
    apply err3_zero; try assumption.
    + intros e I. destruct (H e I) as (P & O & _). split; [exact P|]. split; [|split].
      * intros x y z Hx Hy Hz. pose proof (P x y z Hx Hy Hz) as Q. cbv beta in Q. lra.
      * intros O1 x y z _ _ _. apply (O O1).
      * destruct (E e I) as [Lc _]. unfold cells3 in Lc. destruct k; try exact Lc; exact Logic.I.
    + intros e I x y z Hx Hy Hz. apply (proj2 (E e I)); apply (IR x y z Hx Hy Hz).
Qed.
