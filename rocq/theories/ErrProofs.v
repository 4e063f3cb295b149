(* Errors as roots of sums over elements and points. *)
From Coq Require Import Reals List Lia Lra Arith ZArith Bool Permutation.
From Verif Require Import TfiModel TfiSpec CtModel CtSpec RingSum SpaceSpec SpaceProofs DiscModel DiscSpec DiscProofs DiscProofs2 DiscProofs3 Disc2Model Disc2Spec Disc2Proofs.
From Verif Require Import ReconModel ReconSpec ReconProofs ReconProofs2 ReconProofs3 ReconProofs4 ReconProofs5.
From Verif Require Import TriModel TriSpec TriProofs TdiscModel TdiscSpec TreconModel TreconSpec TreconProofs TreconProofs3 TreconProofs4 Rec2Model Rec2Spec Rec2Proofs Rec2Proofs2 Rec2Proofs3.
From Verif Require Import ErrModel ErrSpec.
Import ListNotations.
Open Scope R_scope.

Lemma nth_root_ok n S : (0 < n)%nat -> root_of n S (nth_root n S).
Proof.
  intros N. unfold nth_root. destruct n as [|n]; [lia|]. destruct (total_order_T S 0) as [[L|E]|G].
  - split; [intros; lra|reflexivity].
  - split; [|intros; lra]. intros _. exists 0. subst S. repeat split; [lra|]. cbn. ring.
  - split; [|intros; lra]. intros _. exists (Rpower S (/ INR (Datatypes.S n))). split; [reflexivity|]. split; [left; apply exp_pos|].
    rewrite <- Rpower_pow by apply exp_pos. rewrite Rpower_mult, Rinv_l by (apply not_0_INR; lia). apply Rpower_1. exact G.
Qed.
Lemma pow_lt_mono n a b : (0 < n)%nat -> 0 <= a < b -> a ^ n < b ^ n.
Proof.
  intros N [A B]. induction n as [|m IH]; [lia|]. destruct m as [|m]; [cbn; lra|]. change (a * a ^ S m < b * b ^ S m).
  apply Rmult_le_0_lt_compat; [exact A|apply pow_le; exact A|exact B|apply IH; lia].
Qed.
Lemma root_unique n S r r' : (0 < n)%nat -> root_of n S r -> root_of n S r' -> r = r'.
Proof.
  intros N [P Q] [P' Q']. destruct (Rlt_dec S 0) as [L|L].
  - rewrite (Q L), (Q' L). reflexivity.
  - destruct (P ltac:(lra)) as (e & -> & E & X). destruct (P' ltac:(lra)) as (e' & -> & E' & X'). f_equal.
    destruct (Rtotal_order e e') as [K|[K|K]]; [|exact K|]; exfalso; [pose proof (pow_lt_mono n e e' N)|pose proof (pow_lt_mono n e' e N)]; lra.
Qed.

(* ---------- values given by functions of the points ---------- *)
Definition represents {Y} (pts : list Y) (vs : list (list R)) (V : Y -> list R) : Prop :=
  exists gs, vs = map (fun g => map g pts) gs /\ forall q, In q pts -> map (fun g => g q) gs = V q.
Lemma map2_maps2 {A B C D} (h : B -> C -> D) (f : A -> B) (g : A -> C) l : map2 h (map f l) (map g l) = map (fun a => h (f a) (g a)) l.
Proof. induction l as [|a l IH]; [reflexivity|]. cbn. rewrite IH. reflexivity. Qed.
Lemma lsum_rsum {A} (f : A -> R) l : lsum (map f l) = rsum l f.
Proof. induction l as [|a l IH]; [reflexivity|]. rewrite rsum_cons, <- IH. reflexivity. Qed.
Lemma rsum_combine_maps {A B C} (f : A -> B) (l : list A) (m : list C) h : rsum (combine (map f l) m) h = rsum (combine l m) (fun ab => h (f (fst ab), snd ab)).
Proof. rewrite combine_map_l, ReconProofs.rsum_map. reflexivity. Qed.
Lemma nth_map_in {A} (f : A -> R) l j a : nth_error l j = Some a -> nth j (map f l) 0 = f a.
Proof. intros E. apply nth_error_nth. rewrite nth_error_map, E. reflexivity. Qed.
Lemma sum_axis_rows {Y} (gs : list (Y -> R)) pts : sum_axis0 (map (fun g => map g pts) gs) (length pts) = map (fun q => rsum gs (fun g => g q)) pts.
Proof.
  unfold sum_axis0. apply map_seq_nth. intros j q E. rewrite map_map, lsum_rsum. apply rsum_ext. intros g _. apply nth_map_in. exact E.
Qed.
Lemma diffs_rows {X Y} n (fs : list (X -> R)) (F : Y -> X) pts gs d :
  diffs n fs (mkEel (map F pts) (map (fun g => map g pts) gs) d) = map (fun h => map h pts) (map2 (fun g f q => (g q - f (F q)) ^ n) gs fs).
Proof.
  unfold diffs. cbn [xyz vals]. revert fs. induction gs as [|g gs IH]; intros [|f fs]; try reflexivity. cbn [map map2]. rewrite IH. f_equal. apply (map2_maps2 (fun a x => (a - f x) ^ n) g F).
Qed.
Lemma err_element_rows {X Y} n w (fs : list (X -> R)) (F : Y -> X) pts vs (d : Y -> R) V : represents pts vs V ->
  err_element n w fs (mkEel (map F pts) vs (map d pts)) = rsum (combine pts w) (fun qw => snd qw * (d (fst qw) * pow_diff n (V (fst qw)) (map (fun f => f (F (fst qw))) fs))).
Proof.
  intros (gs & -> & H). unfold err_element. rewrite diffs_rows. cbn [xyz dets]. rewrite map_length, sum_axis_rows, map2_maps2, lsum_map2, rsum_combine_maps.
  apply rsum_ext. intros [q x] I. cbn [fst snd]. apply in_combine_l in I. rewrite <- (H q I). unfold pow_diff.
  assert (E : rsum (map2 (fun g f q0 => (g q0 - f (F q0)) ^ n) gs fs) (fun g => g q) = rsum (combine (map (fun g => g q) gs) (map (fun f => f (F q)) fs)) (fun ab => (fst ab - snd ab) ^ n)).
  { clear. revert fs. induction gs as [|g gs IH]; intros [|f fs]; try reflexivity. cbn [map map2 combine]. rewrite !rsum_cons, IH. reflexivity. }
  rewrite E. ring.
Qed.
Lemma err_L_root {X} n w (fs : list (X -> R)) cores : (0 < n)%nat -> root_of n (rsum (concat cores) (err_element n w fs)) (err_L n w fs cores).
Proof.
  intros N. unfold err_L. replace (lsum (map (fun els => lsum (map (err_element n w fs) els)) cores)) with (rsum (concat cores) (err_element n w fs)); [apply nth_root_ok; exact N|].
  rewrite lsum_rsum. induction cores as [|c cores IH]; [reflexivity|]. cbn [concat]. rewrite rsum_app, rsum_cons, <- IH, lsum_rsum. reflexivity.
Qed.
Lemma rsum_perm {A} (l m : list A) f : Permutation l m -> rsum l f = rsum m f.
Proof. induction 1; rewrite ?rsum_cons; try reflexivity; try lra. Qed.
Lemma root_ext n S S' r : S = S' -> root_of n S r -> root_of n S' r.
Proof. intros ->. exact (fun H => H). Qed.
Lemma err_L_cores {X} n w (fs : list (X -> R)) cores cores' : (0 < n)%nat -> Permutation (concat cores) (concat cores') -> err_L n w fs cores = err_L n w fs cores'.
Proof.
  intros N P. apply (root_unique n (rsum (concat cores) (err_element n w fs))); [exact N|apply err_L_root; exact N|].
  apply (root_ext _ (rsum (concat cores') (err_element n w fs))); [symmetry; apply rsum_perm; exact P|]. apply err_L_root. exact N.
Qed.
Lemma concat_maps {A B} (h : A -> B) l : concat (map (map h) l) = map h (concat l).
Proof. symmetry. apply concat_map. Qed.

(* ---------- 2D ---------- *)
Lemma one_row {Y} (pts : list Y) f V : (forall q, In q pts -> V q = [f q]) -> represents pts [map f pts] V.
Proof. intros H. exists [f]. split; [reflexivity|]. intros q I. rewrite (H q I). reflexivity. Qed.
Lemma two_rows {Y} (pts : list Y) (f : Y -> R * R) V : (forall q, In q pts -> V q = [fst (f q); snd (f q)]) -> represents pts (both (map f pts)) V.
Proof.
  intros H. exists [fun q => fst (f q); fun q => snd (f q)]. split; [unfold both; rewrite !map_map; reflexivity|]. intros q I. rewrite (H q I). reflexivity.
Qed.
Lemma three_rows {Y} (pts : list Y) (f : Y -> R * R * R) V : (forall q, In q pts -> V q = [fst (fst (f q)); snd (fst (f q)); snd (f q)]) -> represents pts (each (map f pts)) V.
Proof.
  intros H. exists [fun q => fst (fst (f q)); fun q => snd (fst (f q)); fun q => snd (f q)]. split; [unfold each; rewrite !map_map; reflexivity|]. intros q I. rewrite (H q I). reflexivity.
Qed.
Lemma vals2_rows k s r0 r1 e v : good2 r0 r1 e -> on_grid2 (fst r0) (fst r1) (fun x y => fields2 k s (f2_c e) (el_J (f2_el e)) x y (v x y)) ->
  represents (tmesh r0 r1) (vals2 k s (fst r0) (fst r1) e) (fun q => v (fst q) (snd q)).
Proof.
  intros [N D] H. destruct k as [|o|]; cbn [vals2].
  - rewrite r2recon0_map. apply one_row. intros [x y] I. apply in_mesh2 in I as [X Y]. cbn [fst snd] in *. specialize (H x y X Y). cbv beta in H. unfold fields2, fieldst in H.
    destruct (v x y) as [|a [|b l]]; cbv beta iota in H; try contradiction. subst a. reflexivity.
  - rewrite r2recon1_map. apply two_rows. intros [x y] I. apply in_mesh2 in I as [X Y]. cbn [fst snd] in *. specialize (H x y X Y). cbv beta in H. unfold fields2, fieldst in H.
    destruct (v x y) as [|a [|b [|c l]]]; cbv beta iota in H; try contradiction.
    pose proof (r2val1_pulls o s (f2_el e) (f2_c e) (fst r0) (fst r1) x y N D X Y) as Q.
    rewrite <- (pulls1_inj o (el_J (f2_el e) x y) _ _ _ (N x y X Y) H Q). reflexivity.
  - rewrite r2recon2_map. apply one_row. intros [x y] I. apply in_mesh2 in I as [X Y]. cbn [fst snd] in *. specialize (H x y X Y). cbv beta in H. unfold fields2, fieldst in H.
    destruct (v x y) as [|a [|b l]]; cbv beta iota in H; try contradiction. unfold field2, tpulls2 in H. f_equal. unfold tiJ, at2. cbn [fst snd].
    pose proof (N x y X Y) as Nx. cbv beta in Nx. rewrite TreconProofs.inv_det by exact Nx. rewrite <- H. field. exact Nx.
Qed.
Theorem err2_ok k s r0 r1 n fs cores v : (0 < n)%nat -> rule_ok r0 -> rule_ok r1 -> (forall e, In e (concat cores) -> good2 r0 r1 e) ->
  (forall e, In e (concat cores) -> on_grid2 (fst r0) (fst r1) (fun x y => fields2 k s (f2_c e) (el_J (f2_el e)) x y (v e x y))) ->
  root_of n (rsum (concat cores) (fun e => tquad r0 r1 (fun x y => det2 (el_J (f2_el e) x y) * pow_diff n (v e x y) (exact2 fs (f2_map e) x y)))) (err2 k s r0 r1 n fs cores).
Proof.
  intros N R0 R1 G H. unfold err2. refine (root_ext _ _ _ _ _ (err_L_root n _ _ _ N)). rewrite concat_maps, ReconProofs.rsum_map. apply rsum_ext. intros e I.
  unfold eel2. rewrite (err_element_rows _ _ _ _ _ _ _ _ (vals2_rows k s r0 r1 e (v e) (G e I) (H e I))). rewrite tquad_points by assumption. apply rsum_ext.
  intros [[x y] w] _. cbn [fst snd]. unfold exact2. rewrite map_map, det2_ct. reflexivity.
Qed.

(* ---------- triangles ---------- *)
Lemma valst_rows k P M r0 r1 e v : goodt r0 r1 e -> on_grid2 (fst r0) (fst r1) (fun x y => fieldst k P M (ft_cell e) (ft_c e) (ft_J e) x y (v x y)) ->
  represents (tmesh r0 r1) (valst k P M (fst r0) (fst r1) e) (fun q => v (fst q) (snd q)).
Proof.
  intros N H. destruct k as [|o|]; cbn [valst].
  - rewrite trecon0_map. apply one_row. intros [x y] I. apply in_mesh2 in I as [X Y]. cbn [fst snd] in *. specialize (H x y X Y). cbv beta in H. unfold fields2, fieldst in H.
    destruct (v x y) as [|a [|b l]]; cbv beta iota in H; try contradiction. subst a. reflexivity.
  - rewrite trecon1_map. apply two_rows. intros [x y] I. apply in_mesh2 in I as [X Y]. cbn [fst snd] in *. specialize (H x y X Y). cbv beta in H. unfold fields2, fieldst in H.
    destruct (v x y) as [|a [|b [|c l]]]; cbv beta iota in H; try contradiction.
    pose proof (value_pulls o (ft_J e x y) (fun d => that1 o P M (ft_cell e) (ft_c e) d x y) (N x y X Y)) as Q.
    unfold val1, tiJ, at2. cbn [fst snd].
    rewrite <- (pulls1_inj o (ft_J e x y) _ _ _ (N x y X Y) H Q). reflexivity.
  - rewrite trecon2_map. apply one_row. intros [x y] I. apply in_mesh2 in I as [X Y]. cbn [fst snd] in *. specialize (H x y X Y). cbv beta in H. unfold fields2, fieldst in H.
    destruct (v x y) as [|a [|b l]]; cbv beta iota in H; try contradiction. unfold tpulls2 in H. f_equal. unfold tiJ, at2. cbn [fst snd].
    pose proof (N x y X Y) as Nx. cbv beta in Nx. rewrite TreconProofs.inv_det by exact Nx. rewrite <- H. field. exact Nx.
Qed.
Theorem errt_ok k P M r0 r1 n fs cores v : (0 < n)%nat -> rule_ok r0 -> rule_ok r1 -> (forall e, In e (concat cores) -> goodt r0 r1 e) ->
  (forall e, In e (concat cores) -> on_grid2 (fst r0) (fst r1) (fun x y => fieldst k P M (ft_cell e) (ft_c e) (ft_J e) x y (v e x y))) ->
  root_of n (rsum (concat cores) (fun e => tquad r0 r1 (fun x y => det2 (ft_J e x y) * pow_diff n (v e x y) (exact2 fs (ft_map e) x y)))) (errt k P M r0 r1 n fs cores).
Proof.
  intros N R0 R1 G H. unfold errt. refine (root_ext _ _ _ _ _ (err_L_root n _ _ _ N)). rewrite concat_maps, ReconProofs.rsum_map. apply rsum_ext. intros e I.
  unfold eelt. rewrite (err_element_rows _ _ _ _ _ _ _ _ (valst_rows k P M r0 r1 e (v e) (G e I) (H e I))). rewrite tquad_points by assumption. apply rsum_ext.
  intros [[x y] w] _. cbn [fst snd]. unfold exact2. rewrite map_map, det2_ct. reflexivity.
Qed.

(* ---------- 3D ---------- *)
Lemma pulls1_one J v w u : det3 J <> 0 -> pulls1 J v u -> pulls1 J w u -> v = w.
Proof.
  intros N V W. pose proof (recover1 J v u N V) as A. pose proof (recover1 J w u N W) as B. destruct v as [[v1 v2] v3], w as [[w1 w2] w3].
  f_equal; [f_equal|]; [transitivity (TfiModel.get (v1, v2, v3) cX)|transitivity (TfiModel.get (v1, v2, v3) cY)|transitivity (TfiModel.get (v1, v2, v3) cZ)];
    try reflexivity; rewrite <- A, B; reflexivity.
Qed.
Lemma pulls2_one J v w u : det3 J <> 0 -> pulls2 J v u -> pulls2 J w u -> v = w.
Proof.
  intros N V W. pose proof (recover2 J v u N V) as A. pose proof (recover2 J w u N W) as B. destruct v as [[v1 v2] v3], w as [[w1 w2] w3].
  f_equal; [f_equal|]; [transitivity (TfiModel.get (v1, v2, v3) cX)|transitivity (TfiModel.get (v1, v2, v3) cY)|transitivity (TfiModel.get (v1, v2, v3) cZ)];
    try reflexivity; rewrite <- A, B; reflexivity.
Qed.
Lemma pulls_ext1 J v u u' : (forall d, u d = u' d) -> pulls1 J v u -> pulls1 J v u'.
Proof. intros E H d. rewrite <- E. apply H. Qed.
Lemma pulls_ext2 J v u u' : (forall d, u d = u' d) -> pulls2 J v u -> pulls2 J v u'.
Proof. intros E H d. rewrite <- E. apply H. Qed.
Lemma vals3_rows k s m e v : good3 k s m e -> on_grid m (fun x y z => fields3 k s (f3_c e) (f3_J e) x y z (v x y z)) ->
  represents (points m) (vals3 k s m e) (at_pt v).
Proof.
  intros (N & D & L) H. destruct k; cbn [vals3].
  - rewrite recon0_map. apply one_row. intros q I. pose proof (in_points m q _ H I) as Hq. destruct q as [[x y] z]. cbn [at_pt] in *. unfold fields3 in Hq.
    destruct (v x y z) as [|a [|b l]]; cbv beta iota in Hq; try contradiction. subst a. reflexivity.
  - rewrite (recon1_map _ _ _ _ _ L). apply three_rows. intros q I. pose proof (in_points m q _ H I) as Hq. pose proof (in_points m q _ N I) as Nq.
    pose proof (fun E => in_points m q _ (D E) I) as Dq. destruct q as [[x y] z]. unfold iJ_at. cbn [at_pt] in *. unfold fields3 in Hq.
    destruct (v x y z) as [|a [|b [|c [|d l]]]]; cbv beta iota in Hq; try contradiction.
    pose proof (value1_pulls (f3_orth e) (f3_J e x y z) (hats (hat1 s (f3_c e)) (x, y, z)) Nq Dq) as Q.
    rewrite <- (pulls1_one _ _ _ _ Nq Hq (pulls_ext1 _ _ _ _ (get_hats (hat1 s (f3_c e)) x y z) Q)). reflexivity.
  - rewrite (recon2_map _ _ _ _ _ L). apply three_rows. intros q I. pose proof (in_points m q _ H I) as Hq. pose proof (in_points m q _ N I) as Nq.
    pose proof (fun E => in_points m q _ (D E) I) as Dq. destruct q as [[x y] z]. unfold iJ_at. cbn [at_pt] in *. unfold fields3 in Hq.
    destruct (v x y z) as [|a [|b [|c [|d l]]]]; cbv beta iota in Hq; try contradiction.
    pose proof (value2_pulls (f3_orth e) (f3_J e x y z) (hats (hat2 s (f3_c e)) (x, y, z)) Nq Dq) as Q.
    rewrite <- (pulls2_one _ _ _ _ Nq Hq (pulls_ext2 _ _ _ _ (get_hats (hat2 s (f3_c e)) x y z) Q)). reflexivity.
  - rewrite recon3_map. apply one_row. intros q I. pose proof (in_points m q _ H I) as Hq. pose proof (in_points m q _ N I) as Nq.
    destruct q as [[x y] z]. unfold iJ_at. cbn [at_pt] in *. unfold fields3 in Hq. destruct (v x y z) as [|a [|b l]]; cbv beta iota in Hq; try contradiction. f_equal.
    unfold pulls3 in Hq. rewrite ReconProofs.inv_det by exact Nq. rewrite <- Hq. field. exact Nq.
Qed.
Lemma rsum_swap_pairs {A B} (w : list A) (x : list B) f : rsum (combine w x) f = rsum (combine x w) (fun q => f (snd q, fst q)).
Proof. revert x. induction w as [|a w IH]; intros [|b x]; try reflexivity. cbn [combine]. rewrite !rsum_cons, IH. reflexivity. Qed.
Theorem err3_ok k s q n fs cores v : (0 < n)%nat -> rules_ok q -> (forall e, In e (concat cores) -> good3 k s (qmesh q) e) ->
  (forall e, In e (concat cores) -> on_grid (qmesh q) (fun x y z => fields3 k s (f3_c e) (f3_J e) x y z (v e x y z))) ->
  root_of n (rsum (concat cores) (fun e => quad3 q (fun x y z => det3 (f3_J e x y z) * pow_diff n (v e x y z) (exact3 fs (f3_map e) x y z)))) (err3 k s q n fs cores).
Proof.
  intros N Q G H. unfold err3. refine (root_ext _ _ _ _ _ (err_L_root n _ _ _ N)). rewrite concat_maps, ReconProofs.rsum_map. apply rsum_ext. intros e I.
  unfold eel3. rewrite (err_element_rows _ _ _ _ _ _ _ _ (vals3_rows k s (qmesh q) e (v e) (G e I) (H e I))). rewrite quad_points by assumption. rewrite rsum_swap_pairs. apply rsum_ext.
  intros [w [[x y] z]] _. cbn [fst snd at_pt]. unfold exact3. rewrite map_map, det_ct. reflexivity.
Qed.
