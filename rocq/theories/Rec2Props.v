(* C142-C145: reconstruction, inverse of discretization, matrices, energies and derivatives of forms on 2D structured meshes. *)
From Coq Require Import Reals List Lra ZArith Arith Permutation Bool.
From Verif Require Import TfiModel CtModel RingSum SpaceModel SpaceSpec SpaceProofs3 DiscModel DiscSpec DiscExample Disc2Model Disc2Spec Disc2Proofs Disc2Proofs2 Disc2Example ReconModel ReconSpec.
From Verif Require Import TriModel TreconModel TreconSpec Rec2Model Rec2Spec Rec2Proofs Rec2Proofs2 Rec2Proofs3 Rec2Proofs4 Rec2Proofs5 Rec2Proofs6 Rec2Example.
From Verif Require TreconExample.
Import ListNotations.
Open Scope R_scope.

(* the reconstructed 0-, 1- and 2-forms are the fields of the cochain at the
   points of the grid *)
Theorem C142_nodes : forall s xi et c, array2 xi et (r2recon0 s xi et c) (fun x y v => v = r2hat0 s c x y).
Proof. exact r2recon0_ok. Qed.
Print Assumptions C142_nodes.
Example C142_nodes_ex : nth_error (r2recon0 rs [0; 1 / 3] [0; 1] rc0) 3 = Some 2.
Proof.
  destruct (proj2 (r2recon0_ok rs [0; 1 / 3] [0; 1] rc0) 1%nat 1%nat (1 / 3) 1 eq_refl eq_refl) as (v & E & V).
  refine (eq_trans E _). rewrite V, <- hat_f. unfold through2, exf2, exF2. cbn [fst snd]. f_equal. field.
Qed.
Theorem C142_edges : forall o s xi et e c, regular e xi et -> orth_ok e xi et -> array2 xi et (r2recon1 o s xi et e c) (field1 o s c (el_J e)).
Proof. exact r2recon1_ok. Qed.
Print Assumptions C142_edges.
Example C142_edges_ex : nth_error (r2recon1 Inner rs (fst pos3) (fst pos3) re rc1) 8 = Some (-1, 0).
Proof.
  destruct (proj2 (r2recon1_ok Inner rs _ _ re rc1 re_regular (re_orth _ _)) 2%nat 2%nat (1 / 2) (1 / 2) eq_refl eq_refl) as (v & E & V).
  refine (eq_trans E _). f_equal. pose proof (hat_v (1 / 2) (1 / 2)) as H.
  pose proof (V false) as V0. pose proof (V true) as V1. pose proof (H false) as H0. pose proof (H true) as H1. cbv beta iota in V0, V1, H0, H1.
  rewrite <- H0 in V0. rewrite <- H1 in V1. clear - V0 V1. destruct v as [a b].
  unfold dot2, mcol, comp, through2, Disc2Spec.value2, exv2, exF2, re, el_J, exJ2 in V0, V1. cbn [fst snd] in V0, V1. f_equal; lra.
Qed.
Theorem C142_faces : forall s xi et e c, regular e xi et -> array2 xi et (r2recon2 s xi et e c) (field2 s c (el_J e)).
Proof. exact r2recon2_ok. Qed.
Print Assumptions C142_faces.
Example C142_faces_ex : nth_error (r2recon2 rs (fst pos3) (fst pos3) re rc2) 5 = Some 1.
Proof.
  destruct (proj2 (r2recon2_ok rs _ _ re rc2 re_regular) 2%nat 1%nat (1 / 2) 0 eq_refl eq_refl) as (v & E & V).
  refine (eq_trans E _). f_equal. pose proof (hat_one (1 / 2) 0) as H. unfold field2, tpulls2 in V, H. change (exJ2 (1 / 2) 0) with (el_J re (1 / 2) 0) in H.
  rewrite <- H, re_det in V. lra.
Qed.
(* the reconstruction matrices applied to the cochain give the same *)
Theorem C142_matrices : forall o s xi et e c,
  times (r2rm0 s xi et) c = r2recon0 s xi et c /\
  (let (a, b) := r2rm1 o s xi et e in components2 (r2recon1 o s xi et e c) (times a c) (times b c)) /\
  times (r2rm2 s xi et e) c = r2recon2 s xi et e c.
Proof. intros o s xi et e c. exact (conj (r2rm0_ok s xi et c) (conj (r2rm1_ok o s xi et e c) (r2rm2_ok s xi et e c))). Qed.
Print Assumptions C142_matrices.
Example C142_matrices_ex : nth_error (times (r2rm0 rs [0; 1 / 3] [0; 1]) rc0) 3 = Some 2.
Proof. rewrite r2rm0_ok. exact C142_nodes_ex. Qed.
(* vectorized reconstruction is the one of the elements when the local cochains
   are stored in the order of the elements *)
Theorem C142_vectorized : forall o s xi et hom els ids local, (hom = true -> alike els xi et) -> (forall e, In e els -> orth_ok e xi et) ->
  NoDup ids -> map fst local = ids ->
  let cs := map (cochain_at local) ids in
  r2vec0 s xi et (cochain_array local) = map (r2recon0 s xi et) cs /\
  r2vec1 o s xi et hom els (cochain_array local) = map2 (fun e c => r2recon1 o s xi et e c) els cs /\
  r2vec2 s xi et hom els (cochain_array local) = map2 (fun e c => r2recon2 s xi et e c) els cs.
Proof. exact r2vectors. Qed.
Print Assumptions C142_vectorized.
Example C142_vectorized_ex : r2vec2 rs (fst pos3) (fst pos3) false [re; ru] (cochain_array [(4%nat, rc2); (7%nat, rc2)]) =
  [r2recon2 rs (fst pos3) (fst pos3) re rc2; r2recon2 rs (fst pos3) (fst pos3) ru rc2].
Proof.
  refine (proj2 (proj2 (r2vectors Inner rs _ _ false [re; ru] [4; 7]%nat [(4%nat, rc2); (7%nat, rc2)] _ _ _ eq_refl))).
  - discriminate.
  - intros e [<-|[<-|[]]] H; [discriminate H|]. intros x y _ _. split; reflexivity.
  - repeat constructor; cbn; intuition discriminate.
Qed.
(* ... and not when they are stored in another order *)
Theorem C142_any_order_refuted : ~ (forall s xi et els ids local, length els = length ids -> NoDup ids -> Permutation (map fst local) ids ->
  (forall e, In e els -> regular e xi et) ->
  r2vec2 s xi et false els (cochain_array local) = map2 (fun e c => r2recon2 s xi et e c) els (map (cochain_at local) ids)).
Proof.
  intros H. specialize (H rs1 [0] [0] [ru; ru] [0; 1]%nat [(1%nat, [4]); (0%nat, [8])] eq_refl).
  assert (ND : NoDup [0; 1]%nat) by (repeat constructor; cbn; intuition discriminate).
  specialize (H ND (perm_swap _ _ _)).
  assert (RG : forall e, In e [ru; ru] -> regular e [0] [0]).
  { intros e [<-|[<-|[]]] x y _ _; unfold det2, cross2, mcol, comp; cbn; lra. }
  specialize (H RG). apply (f_equal (fun l => nth 0 (nth 0 l []) 0)) in H.
  rewrite (proj2 (proj2 (r2vectors Inner rs1 [0] [0] false [ru; ru] [1; 0]%nat [(1%nat, [4]); (0%nat, [8])] (fun E => False_ind _ (diff_false_true E))
    (fun e I => match I with or_introl E => fun _ x y _ _ => eq_ind ru (fun e => diagonal2 (el_J e x y)) (conj eq_refl eq_refl) e E
       | or_intror (or_introl E) => fun _ x y _ _ => eq_ind ru (fun e => diagonal2 (el_J e x y)) (conj eq_refl eq_refl) e E
       | or_intror (or_intror F) => False_ind _ F end) (NoDup_rev ND) eq_refl))) in H.
  cbn [map cochain_at Nat.eqb map2 nth] in H.
  destruct (proj2 (r2recon2_ok rs1 [0] [0] ru [4] (RG ru (or_introl eq_refl))) 0%nat 0%nat 0 0 eq_refl eq_refl) as (v & E & V).
  destruct (proj2 (r2recon2_ok rs1 [0] [0] ru [8] (RG ru (or_introl eq_refl))) 0%nat 0%nat 0 0 eq_refl eq_refl) as (w & E' & V').
  cbn [length Nat.mul Nat.add] in E, E'. rewrite (nth_error_nth _ _ _ E), (nth_error_nth _ _ _ E') in H. subst w.
  unfold field2, tpulls2 in V, V'. rewrite V in V'. clear - V'. unfold r2hat2, expand2, rsum in V'. cbn in V'. lra.
Qed.
Print Assumptions C142_any_order_refuted.

(* discretizing a reconstructed form gives the cochain back *)
Theorem C143_nodes : forall g s, basis2_of g s -> exact2_for g s -> grid2_ok g -> forall F f c, length c = length (cells (deg2 s) nodes2) ->
  in_square (fun x y => through2 f F x y = r2hat0 s c x y) -> disc2_0 (hx g) (hy g) F f = c.
Proof. exact r2inverse0. Qed.
Print Assumptions C143_nodes.
Example C143_nodes_ex : disc2_0 exN0 exN0 exF2 exf2 = rc0.
Proof. exact disc_f. Qed.
Theorem C143_inner : forall g s, basis2_of g s -> exact2_for g s -> grid2_ok g -> forall F J orth v c, length c = length (cells (deg2 s) (edges2 Inner)) ->
  (orth = true -> forall x y, diagonal2 (J x y)) -> in_square (fun x y => field1 Inner s c J x y (through2 (Disc2Spec.value2 v) F x y)) ->
  disc2_inner (hx g) (hy g) (pdeg (z0 s)) (pdeg (z1 s)) (sx g) (sy g) F J orth v = c.
Proof. exact r2inverse_inner. Qed.
Print Assumptions C143_inner.
Example C143_inner_ex : disc2_inner exN0 exN0 2 2 DiscExample.mid DiscExample.mid exF2 exJ2 false exv2 = rc1.
Proof. exact disc_v. Qed.
Theorem C143_outer : forall g s, basis2_of g s -> exact2_for g s -> grid2_ok g -> forall F J orth v c, length c = length (cells (deg2 s) (edges2 Outer)) ->
  (orth = true -> forall x y, diagonal2 (J x y)) -> in_square (fun x y => field1 Outer s c J x y (through2 (Disc2Spec.value2 v) F x y)) ->
  disc2_outer (hx g) (hy g) (pdeg (z0 s)) (pdeg (z1 s)) (sx g) (sy g) F J orth v = c.
Proof. exact r2inverse_outer. Qed.
Print Assumptions C143_outer.
Example C143_outer_ex : disc2_outer exN0 exN0 2 2 DiscExample.mid DiscExample.mid exF2 exJ2 false exu2 = rc1o.
Proof. exact disc_u. Qed.
Theorem C143_faces : forall g s, basis2_of g s -> exact2_for g s -> grid2_ok g -> forall F J f c, length c = length (cells (deg2 s) faces2) ->
  in_square (fun x y => field2 s c J x y (through2 f F x y)) ->
  disc2_2 (hx g) (hy g) (pdeg (z0 s)) (pdeg (z1 s)) (sx g) (sy g) F J f = c.
Proof. exact r2inverse2. Qed.
Print Assumptions C143_faces.
Example C143_faces_ex : disc2_2 exN0 exN0 2 2 DiscExample.mid DiscExample.mid exF2 exJ2 (fun _ _ => 1) = rc2.
Proof. exact disc_one. Qed.

(* inner product matrices are the quadratures of the products of the fields *)
Theorem C144_inner : forall r0 r1 e, rule_ok r0 -> rule_ok r1 -> regular e (fst r0) (fst r1) -> orth_ok e (fst r0) (fst r1) ->
  forall same o so ss a b c d, (same = true -> so = ss) -> forall v w f g,
  on_grid2 (fst r0) (fst r1) (fun x y => field1 o so a (el_J e) x y (v x y)) -> on_grid2 (fst r0) (fst r1) (fun x y => field1 o ss b (el_J e) x y (w x y)) ->
  on_grid2 (fst r0) (fst r1) (fun x y => field2 so c (el_J e) x y (f x y)) -> on_grid2 (fst r0) (fst r1) (fun x y => field2 ss d (el_J e) x y (g x y)) ->
  bilinear (r2inner0 so ss r0 r1 e) a b = tquad r0 r1 (fun x y => det2 (el_J e x y) * (r2hat0 so a x y * r2hat0 ss b x y)) /\
  bilinear (r2inner1 same o so ss r0 r1 e) a b = tquad r0 r1 (fun x y => det2 (el_J e x y) * dot2 (v x y) (w x y)) /\
  bilinear (r2inner2 so ss r0 r1 e) c d = tquad r0 r1 (fun x y => det2 (el_J e x y) * (f x y * g x y)).
Proof.
  intros r0 r1 e H0 H1 N O same o so ss a b c d S v w f g V W X Y.
  exact (conj (r2inner0_ok r0 r1 e H0 H1 so ss a b) (conj (r2inner1_ok r0 r1 e H0 H1 N O same o so ss a b v w S V W) (r2inner2_ok r0 r1 e H0 H1 N so ss c d f g X Y))).
Qed.
Print Assumptions C144_inner.
Example C144_inner_ex : bilinear (r2inner0 rs rs pos3 pos3 re) rc0 rc0 = 18 /\ bilinear (r2inner1 true Inner rs rs pos3 pos3 re) rc1 rc1 = 16 / 3 /\
  bilinear (r2inner2 rs rs pos3 pos3 re) rc2 rc2 = 8.
Proof.
  split; [|split].
  - rewrite (r2inner0_ok pos3 pos3 re eq_refl eq_refl). unfold tquad, rsum, pos3. cbn [combine fst snd map fold_right]. rewrite !re_det, <- !hat_f.
    unfold through2, exf2, exF2. cbn [fst snd]. field.
  - rewrite (r2inner1_ok pos3 pos3 re eq_refl eq_refl re_regular (re_orth _ _) true Inner rs rs rc1 rc1 (through2 (Disc2Spec.value2 exv2) exF2) (through2 (Disc2Spec.value2 exv2) exF2))
      by (try reflexivity; intros x y _ _; apply hat_v).
    unfold tquad, rsum, pos3. cbn [combine fst snd map fold_right]. rewrite !re_det. unfold through2, Disc2Spec.value2, exv2, exF2, dot2. cbn [fst snd]. field.
  - rewrite (r2inner2_ok pos3 pos3 re eq_refl eq_refl re_regular rs rs rc2 rc2 (fun _ _ => 1) (fun _ _ => 1)) by (intros x y _ _; apply hat_one).
    unfold tquad, rsum, pos3. cbn [combine fst snd map fold_right]. rewrite !re_det. field.
Qed.
(* mass matrices are symmetric and positive definite *)
Theorem C144_symmetric : forall s same o r0 r1 e, orth_ok e (fst r0) (fst r1) ->
  symmetric (r2inner0 s s r0 r1 e) (length (cells (deg2 s) nodes2)) /\ symmetric (r2inner1 same o s s r0 r1 e) (length (cells (deg2 s) (edges2 o))) /\
  symmetric (r2inner2 s s r0 r1 e) (length (cells (deg2 s) faces2)).
Proof. exact r2symmetric. Qed.
Print Assumptions C144_symmetric.
Example C144_symmetric_ex : length (cells (deg2 rs) nodes2) = 9%nat /\ length (cells (deg2 rs) (edges2 Outer)) = 12%nat /\ length (cells (deg2 rs) faces2) = 4%nat.
Proof. repeat split. Qed.
Theorem C144_positive : forall r0 r1 s same o e, rule_ok r0 -> rule_ok r1 -> weights_pos r0 -> weights_pos r1 -> separates (fst r0) (z0 s) -> separates (fst r1) (z1 s) ->
  on_grid2 (fst r0) (fst r1) (fun x y => 0 < det2 (el_J e x y)) -> orth_ok e (fst r0) (fst r1) ->
  positive_definite (r2inner0 s s r0 r1 e) (length (cells (deg2 s) nodes2)) /\ positive_definite (r2inner1 same o s s r0 r1 e) (length (cells (deg2 s) (edges2 o))) /\
  positive_definite (r2inner2 s s r0 r1 e) (length (cells (deg2 s) faces2)).
Proof. exact r2positive. Qed.
Print Assumptions C144_positive.
Example C144_positive_ex : rule_ok pos3 /\ weights_pos pos3 /\ separates (fst pos3) (z0 rs) /\ on_grid2 (fst pos3) (fst pos3) (fun x y => 0 < det2 (el_J re x y)).
Proof. exact (conj (proj1 TreconExample.pos3_ok) (conj (proj2 TreconExample.pos3_ok) (conj TreconExample.pos3_separates re_pos))). Qed.
(* wedge matrices are metric free: they hold the integrals over the reference
   square of the product of a 2-form and a 0-form; of 1-forms of opposite
   orientation the integral of the dot product of the fields *)
Theorem C144_wedge : forall r0 r1, rule_ok r0 -> rule_ok r1 -> forall so ss co cs,
  bilinear (r2wedge20 so ss r0 r1) co cs = tquad r0 r1 (fun x y => r2hat2 so co x y * r2hat0 ss cs x y) /\
  bilinear (r2wedge02 so ss r0 r1) co cs = tquad r0 r1 (fun x y => r2hat0 so co x y * r2hat2 ss cs x y) /\
  (forall o J v w, on_grid2 (fst r0) (fst r1) (fun x y => field1 o so co J x y (v x y)) ->
     on_grid2 (fst r0) (fst r1) (fun x y => field1 (flip_or o) ss cs J x y (w x y)) ->
     bilinear (r2wedge11 o (flip_or o) so ss r0 r1) co cs = tquad r0 r1 (fun x y => det2 (J x y) * dot2 (v x y) (w x y))).
Proof.
  intros r0 r1 H0 H1 so ss co cs.
  exact (conj (r2wedge20_ok r0 r1 H0 H1 so ss co cs) (conj (r2wedge02_ok r0 r1 so ss co cs H0 H1) (fun o J v w V W => r2wedge11_ok o so ss r0 r1 J co cs v w H0 H1 V W))).
Qed.
Print Assumptions C144_wedge.
Example C144_wedge_ex : bilinear (r2wedge20 rs rs pos3 pos3) rc2 rc2 = bilinear (r2wedge02 rs rs pos3 pos3) rc2 rc2 /\
  bilinear (r2wedge11 Inner Outer rs rs pos3 pos3) rc1 rcw = - (8 / 3).
Proof.
  split.
  - rewrite (r2wedge20_ok pos3 pos3 eq_refl eq_refl), (r2wedge02_ok pos3 pos3) by reflexivity. unfold tquad, rsum. cbn [combine pos3 fst snd map fold_right]. ring.
  - change (r2wedge11 Inner Outer rs rs pos3 pos3) with (r2wedge11 Inner (flip_or Inner) rs rs pos3 pos3).
    rewrite (r2wedge11_ok Inner rs rs pos3 pos3 exJ2 rc1 rcw (through2 (Disc2Spec.value2 exv2) exF2) (fun _ _ => (1, 0)))
      by first [reflexivity|intros x y _ _; first [apply hat_v|apply hat_w]].
    unfold tquad, rsum, pos3. cbn [combine fst snd map fold_right]. change exJ2 with (el_J re). rewrite !re_det. unfold through2, Disc2Spec.value2, exv2, exF2, dot2. cbn [fst snd]. field.
Qed.
(* of the same orientation they are not the integrals of the wedge product, which
   vanishes for a form with itself *)
Theorem C144_same_orientation_refuted : ~ (forall o so ss r0 r1 J co cs v w, rule_ok r0 -> rule_ok r1 ->
  on_grid2 (fst r0) (fst r1) (fun x y => field1 o so co J x y (v x y)) -> on_grid2 (fst r0) (fst r1) (fun x y => field1 o ss cs J x y (w x y)) ->
  bilinear (r2wedge11 o o so ss r0 r1) co cs = tquad r0 r1 (fun x y => det2 (J x y) * cross2 (v x y) (w x y))).
Proof.
  intros H. specialize (H Inner rs1 rs1 DiscExample.mid DiscExample.mid (el_J ru) [2; 2; 0; 0] [2; 2; 0; 0] (fun _ _ => (1, 0)) (fun _ _ => (1, 0)) eq_refl eq_refl
    (fun x y _ _ => hat_ex x y) (fun x y _ _ => hat_ex x y)).
  unfold tquad, rsum, bilinear, r2wedge11 in H. cbn in H. unfold cross2 in H. cbn in H. unfold rsum in H. cbn in H. lra.
Qed.
Print Assumptions C144_same_orientation_refuted.
(* the energies are the sums over the elements of the quadratures of the powers of
   the field, the vectorized ones too *)
Theorem C144_energies : forall r0 r1 els cs s, rule_ok r0 -> rule_ok r1 -> (forall e, In e els -> regular e (fst r0) (fst r1)) ->
  (forall e, In e els -> orth_ok e (fst r0) (fst r1)) -> forall n o v w,
  (forall e c, In e els -> In c cs -> on_grid2 (fst r0) (fst r1) (fun x y => field1 o s c (el_J e) x y (v e c x y))) ->
  (forall e c, In e els -> In c cs -> on_grid2 (fst r0) (fst r1) (fun x y => field2 s c (el_J e) x y (w e c x y))) ->
  let total h := rsum (combine els cs) (fun ec => tquad r0 r1 (fun x y => det2 (el_J (fst ec) x y) * h (fst ec) (snd ec) x y)) in
  r2energy_s n r0 r1 els (map (r2recon0 s (fst r0) (fst r1)) cs) = total (fun _ c x y => r2hat0 s c x y ^ n) /\
  r2energy_v n r0 r1 els (map2 (fun e c => r2recon1 o s (fst r0) (fst r1) e c) els cs) = total (fun e c x y => fst (v e c x y) ^ n + snd (v e c x y) ^ n) /\
  r2energy_s n r0 r1 els (map2 (fun e c => r2recon2 s (fst r0) (fst r1) e c) els cs) = total (fun e c x y => w e c x y ^ n).
Proof.
  intros r0 r1 els cs s H0 H1 N O n o v w V W.
  exact (conj (r2energy0 r0 r1 els cs s H0 H1 n) (conj (r2energy1 r0 r1 els cs s H0 H1 N O n o v V) (r2energy2 r0 r1 els cs s H0 H1 N n w W))).
Qed.
Print Assumptions C144_energies.
Example C144_energies_ex : r2energy_s 3 pos3 pos3 [re] (map2 (fun e c => r2recon2 rs (fst pos3) (fst pos3) e c) [re] [rc2]) = 8.
Proof.
  rewrite (r2energy2 pos3 pos3 [re] [rc2] rs eq_refl eq_refl) with (v := fun _ _ _ _ => 1).
  - unfold tquad, rsum, pos3. cbn [combine fst snd map fold_right]. rewrite !re_det. field.
  - intros e [<-|[]]. exact re_regular.
  - intros e c [<-|[]] [<-|[]] x y _ _. apply hat_one.
Qed.
Theorem C144_vectorized_energies : forall r0 r1 els cs s, rule_ok r0 -> rule_ok r1 -> (forall e, In e els -> orth_ok e (fst r0) (fst r1)) ->
  length cs = length els -> forall hom, (hom = true -> alike els (fst r0) (fst r1)) -> forall n o,
  r2energy_vec r0 r1 hom els (r2pow_s n (r2vec0 s (fst r0) (fst r1) cs)) = r2energy_s n r0 r1 els (map (r2recon0 s (fst r0) (fst r1)) cs) /\
  r2energy_vec r0 r1 hom els (r2pow_v n (r2vec1 o s (fst r0) (fst r1) hom els cs)) = r2energy_v n r0 r1 els (map2 (fun e c => r2recon1 o s (fst r0) (fst r1) e c) els cs) /\
  r2energy_vec r0 r1 hom els (r2pow_s n (r2vec2 s (fst r0) (fst r1) hom els cs)) = r2energy_s n r0 r1 els (map2 (fun e c => r2recon2 s (fst r0) (fst r1) e c) els cs).
Proof.
  intros r0 r1 els cs s H0 H1 O L hom A n o.
  exact (conj (r2energy_vec0 r0 r1 els cs s H0 H1 hom A n L) (conj (r2energy_vec1 r0 r1 els cs s H0 H1 O hom A n o) (r2energy_vec2 r0 r1 els cs s H0 H1 hom A n))).
Qed.
Print Assumptions C144_vectorized_energies.
Example C144_vectorized_energies_ex : alike [ru; ru] (fst pos3) (fst pos3) /\ (forall e, In e [ru; ru] -> orth_ok e (fst pos3) (fst pos3)) /\ el_orth ru = true.
Proof.
  split; [intros e e' [<-|[<-|[]]] [<-|[<-|[]]] x y _ _; reflexivity|]. split; [|reflexivity].
  intros e [<-|[<-|[]]] _ x y _ _; split; reflexivity.
Qed.
(* the energy with another form is the sum of the bilinear forms of the mass
   matrices *)
Theorem C144_L2 : forall hom els r0 r1 same o so ss co cs, (hom = true -> alike els (fst r0) (fst r1)) -> (forall e, In e els -> orth_ok e (fst r0) (fst r1)) -> (same = true -> so = ss) ->
  let total M := rsum (combine els (combine co cs)) (fun q => bilinear (M (fst q)) (fst (snd q)) (snd (snd q))) in
  r2L2_with hom els (r2inner0 so ss r0 r1) co cs = total (r2inner0 so ss r0 r1) /\
  r2L2_with hom els (r2inner1 same o so ss r0 r1) co cs = total (r2inner1 same o so ss r0 r1) /\
  r2L2_with hom els (r2inner2 so ss r0 r1) co cs = total (r2inner2 so ss r0 r1).
Proof. exact r2L2. Qed.
Print Assumptions C144_L2.
Example C144_L2_ex : r2L2_with false [re] (r2inner2 rs rs pos3 pos3) [rc2] [rc2] = 8.
Proof.
  rewrite (proj2 (proj2 (r2L2 false [re] pos3 pos3 true Inner rs rs [rc2] [rc2] (fun E => False_ind _ (diff_false_true E))
    (fun e I => match I with or_introl E => eq_ind re (fun e => orth_ok e (fst pos3) (fst pos3)) (re_orth _ _) e E | or_intror F => False_ind _ F end) (fun _ => eq_refl)))).
  unfold rsum. cbn [combine fold_right fst snd]. rewrite (proj2 (proj2 C144_inner_ex)). ring.
Qed.
(* energies of odd powers may vanish for forms that do not: no norm *)
Theorem C144_odd_norm_refuted : ~ (forall n s r0 r1 e c, (1 <= n)%nat -> rule_ok r0 -> rule_ok r1 -> weights_pos r0 -> weights_pos r1 ->
  separates (fst r0) (z0 s) -> separates (fst r1) (z1 s) -> on_grid2 (fst r0) (fst r1) (fun x y => 0 < det2 (el_J e x y)) ->
  length c = length (cells (deg2 s) nodes2) ->
  r2energy_s n r0 r1 [e] [r2recon0 s (fst r0) (fst r1) c] = 0 -> c = repeat 0 (length c)).
Proof.
  intros H. specialize (H 1%nat rs pos3 pos3 re rc0 (le_n 1) (proj1 TreconExample.pos3_ok) (proj1 TreconExample.pos3_ok) (proj2 TreconExample.pos3_ok) (proj2 TreconExample.pos3_ok)
    TreconExample.pos3_separates TreconExample.pos3_separates re_pos eq_refl).
  assert (rc0 = repeat 0 (length rc0)) as K.
  { apply H. refine (eq_trans (r2energy0 pos3 pos3 [re] [rc0] rs eq_refl eq_refl 1) _).
    unfold tquad, rsum, pos3. cbn [combine fst snd map fold_right]. rewrite !re_det, <- !hat_f. unfold through2, exf2, exF2. cbn [fst snd]. field. }
  apply (f_equal (fun l => nth 5 l 0)) in K. cbn in K. lra.
Qed.
Print Assumptions C144_odd_norm_refuted.

(* the incidence matrices give the cochains of the gradient, the rotated gradient,
   the rotation and the divergence of the reconstructed forms *)
Theorem C145_gradient : forall g s F J, basis2_of g s -> jacobian2_of F J -> forall f G E c u,
  EI10 (deg2 s) = Some E -> length c = length (cells (deg2 s) nodes2) -> length u = length (cells (deg2 s) edges2_inner) -> mat_times E c u ->
  inside_square (fun x y => through2 f F x y = r2hat0 s c x y) ->
  inside_square (fun x y => has_grad2 f (fst F x y) (snd F x y) (through2 (Disc2Spec.value2 G) F x y)) ->
  inside_square (fun x y => field1 Inner s u J x y (through2 (Disc2Spec.value2 G) F x y)).
Proof. intros g s F J B HJ. exact (r2deriv0 g s F J B HJ Inner). Qed.
Print Assumptions C145_gradient.
Example C145_gradient_ex : exists E u, EI10 [2; 2]%nat = Some E /\ mat_times E rc0 u /\ inside_square (fun x y => field1 Inner rs u exJ2 x y (3, 0)).
Proof.
  destruct (EI10_acts RRing 2 2) as (E & HE & _). exists E, (disc2_inner exN0 exN0 2 2 Disc2Example.two Disc2Example.two exF2 exJ2 false exG2).
  assert (T : mat_times E rc0 (disc2_inner exN0 exN0 2 2 Disc2Example.two Disc2Example.two exF2 exJ2 false exG2)).
  { rewrite <- disc_f. apply disc2_grad with (1 := eq_refl) (2 := eq_refl) (3 := ex2_jacobian); [discriminate|exact ex2_grad| |exact HE].
    intros b a. destruct b; cbn; [apply (two_exact _ _ (3 * a) (3 * a))|apply (two_exact _ _ 0 (3 * (1 + a)))]; intros; unfold through2, exf2, exF2; cbn; ring. }
  split; [exact HE|]. split; [exact T|].
  apply (r2deriv0 rg rs exF2 exJ2 rs_basis ex2_jacobian Inner exf2 exG2 E rc0 _ HE eq_refl); [reflexivity|exact T| |]; intros x y _ _; [apply hat_f|apply ex2_grad].
Qed.
Theorem C145_rotated_gradient : forall g s F J, basis2_of g s -> jacobian2_of F J -> forall f G E c u,
  EO10 (deg2 s) = Some E -> length c = length (cells (deg2 s) nodes2) -> length u = length (cells (deg2 s) edges2_outer) -> mat_times E c u ->
  inside_square (fun x y => through2 f F x y = r2hat0 s c x y) ->
  inside_square (fun x y => has_grad2 f (fst F x y) (snd F x y) (- snd (through2 (Disc2Spec.value2 G) F x y), fst (through2 (Disc2Spec.value2 G) F x y))) ->
  inside_square (fun x y => field1 Outer s u J x y (through2 (Disc2Spec.value2 G) F x y)).
Proof. intros g s F J B HJ. exact (r2deriv0 g s F J B HJ Outer). Qed.
Print Assumptions C145_rotated_gradient.
Example C145_rotated_gradient_ex : exists E u, EO10 [2; 2]%nat = Some E /\ mat_times E rc0 u /\ inside_square (fun x y => field1 Outer rs u exJ2 x y (0, -3)).
Proof.
  destruct (EO10_acts RRing 2 2) as (E & HE & _). exists E, (disc2_outer exN0 exN0 2 2 Disc2Example.two Disc2Example.two exF2 exJ2 false exR2).
  assert (T : mat_times E rc0 (disc2_outer exN0 exN0 2 2 Disc2Example.two Disc2Example.two exF2 exJ2 false exR2)).
  { rewrite <- disc_f. apply disc2_rot with (1 := eq_refl) (2 := eq_refl) (3 := ex2_jacobian); [discriminate|exact ex2_rot| |exact HE].
    intros b a. destruct b; cbn; [apply (two_exact _ _ (3 * a) (3 * a))|apply (two_exact _ _ 0 (3 * (1 + a)))]; intros; unfold through2, exf2, exF2; cbn; ring. }
  split; [exact HE|]. split; [exact T|].
  apply (r2deriv0 rg rs exF2 exJ2 rs_basis ex2_jacobian Outer exf2 exR2 E rc0 _ HE eq_refl); [reflexivity|exact T| |]; intros x y _ _; [apply hat_f|apply ex2_rot].
Qed.
Theorem C145_rotation : forall g s F J, basis2_of g s -> jacobian2_of F J -> forall hxy, mixed J hxy -> forall v D E c u,
  EI21 (deg2 s) = Some E -> length c = length (cells (deg2 s) edges2_inner) -> length u = length (cells (deg2 s) faces2) -> mat_times E c u ->
  inside_square (fun x y => field1 Inner s c J x y (through2 (Disc2Spec.value2 v) F x y)) ->
  inside_square (fun x y => has_grad2 (fst v) (fst F x y) (snd F x y) (fst (through2 D F x y)) /\ has_grad2 (snd v) (fst F x y) (snd F x y) (snd (through2 D F x y))) ->
  inside_square (fun x y => field2 s u J x y (through2 (rot2 D) F x y)).
Proof. intros g s F J B HJ hxy HM. exact (r2deriv1 g s F J B HJ hxy HM Inner). Qed.
Print Assumptions C145_rotation.
Example C145_rotation_ex : exists E u, EI21 [2; 2]%nat = Some E /\ mat_times E rc1 u /\ inside_square (fun x y => field2 rs u exJ2 x y (0 - -1)).
Proof.
  destruct (EI21_acts RRing 2 2) as (E & HE & _). exists E, (disc2_2 exN0 exN0 2 2 DiscExample.mid DiscExample.mid exF2 exJ2 (rot2 exDv2)).
  assert (T : mat_times E rc1 (disc2_2 exN0 exN0 2 2 DiscExample.mid DiscExample.mid exF2 exJ2 (rot2 exDv2))).
  { rewrite <- disc_v. apply disc2_curl with (1 := eq_refl) (2 := eq_refl) (3 := ex2_jacobian) (5 := ex2_mixed) (6 := ex2_deriv_v); [discriminate| | |exact HE].
    - intros b a. destruct b; cbn; [apply (mid_exact _ _ 0 (-2 * a) 0)|apply (mid_exact _ _ 0 (-2) (-2))];
        intros; unfold circ, dot2, mcol, comp, through2, Disc2Spec.value2, exF2, exJ2, exv2; cbn; ring.
    - intros b a. destruct b; intros i _; reflexivity. }
  split; [exact HE|]. split; [exact T|].
  apply (r2deriv1 rg rs exF2 exJ2 rs_basis ex2_jacobian _ ex2_mixed Inner exv2 exDv2 E rc1 _ HE eq_refl); [reflexivity|exact T| |]; intros x y _ _; [apply hat_v|exact (ex2_deriv_v _ _)].
Qed.
Theorem C145_divergence : forall g s F J, basis2_of g s -> jacobian2_of F J -> forall hxy, mixed J hxy -> forall v D E c u,
  EO21 (deg2 s) = Some E -> length c = length (cells (deg2 s) edges2_outer) -> length u = length (cells (deg2 s) faces2) -> mat_times E c u ->
  inside_square (fun x y => field1 Outer s c J x y (through2 (Disc2Spec.value2 v) F x y)) ->
  inside_square (fun x y => has_grad2 (fst v) (fst F x y) (snd F x y) (fst (through2 D F x y)) /\ has_grad2 (snd v) (fst F x y) (snd F x y) (snd (through2 D F x y))) ->
  inside_square (fun x y => field2 s u J x y (through2 (div2 D) F x y)).
Proof. intros g s F J B HJ hxy HM. exact (r2deriv1 g s F J B HJ hxy HM Outer). Qed.
Print Assumptions C145_divergence.
Example C145_divergence_ex : exists E u, EO21 [2; 2]%nat = Some E /\ mat_times E rc1o u /\ inside_square (fun x y => field2 rs u exJ2 x y (0 + 1)).
Proof.
  destruct (EO21_acts RRing 2 2) as (E & HE & _). exists E, (disc2_2 exN0 exN0 2 2 DiscExample.mid DiscExample.mid exF2 exJ2 (div2 exDu2)).
  assert (T : mat_times E rc1o (disc2_2 exN0 exN0 2 2 DiscExample.mid DiscExample.mid exF2 exJ2 (div2 exDu2))).
  { rewrite <- disc_u. apply disc2_div with (1 := eq_refl) (2 := eq_refl) (3 := ex2_jacobian) (5 := ex2_mixed) (6 := ex2_deriv_u); [discriminate| | |exact HE].
    - intros b a. destruct b; cbn; [apply (mid_exact _ _ 0 (-2 * a) 0)|apply (mid_exact _ _ 0 (-2) (-2))];
        intros; unfold flux, cross2, mcol, comp, through2, Disc2Spec.value2, exF2, exJ2, exu2; cbn; ring.
    - intros b a. destruct b; intros i _; reflexivity. }
  split; [exact HE|]. split; [exact T|].
  apply (r2deriv1 rg rs exF2 exJ2 rs_basis ex2_jacobian _ ex2_mixed Outer exu2 exDu2 E rc1o _ HE eq_refl); [reflexivity|exact T| |]; intros x y _ _; [apply hat_u|exact (ex2_deriv_u _ _)].
Qed.
