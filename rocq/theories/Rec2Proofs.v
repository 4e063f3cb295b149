(* Reconstruction of forms on a 2D element. *)
From Coq Require Import Reals List Lia Lra Arith ZArith Bool.
From Verif Require Import TfiModel CtModel RingSum SpaceSpec DiscModel DiscSpec DiscProofs DiscProofs2 DiscProofs3 Disc2Model Disc2Spec Disc2Proofs.
From Verif Require Import ReconModel ReconSpec ReconProofs ReconProofs2 ReconProofs3 ReconProofs4.
From Verif Require Import TriModel TriSpec TriProofs TdiscModel TdiscSpec TreconModel TreconSpec TreconProofs Rec2Model Rec2Spec.
Import ListNotations.
Open Scope R_scope.

(* ---------- cells of one type ---------- *)
Definition CT (s : Space2) (a b : bool) : list cell := cells_t (deg2 s) [a; b].
Definition cf (s : Space2) (c : cell) (q : R * R) : R := fn2 s c (fst q) (snd q).
Lemma map_flat_map' {A B C} (f : B -> C) (g : A -> list B) l : map f (flat_map g l) = flat_map (fun a => map f (g a)) l.
Proof. induction l as [|a l IH]; [reflexivity|]. cbn. rewrite map_app, IH. reflexivity. Qed.
Lemma flat_map_map' {A B C} (f : A -> B) (g : B -> list C) l : flat_map g (map f l) = flat_map (fun a => g (f a)) l.
Proof. induction l as [|a l IH]; [reflexivity|]. cbn. rewrite IH. reflexivity. Qed.
Lemma CT_prods s a b : CT s a b = map (fun ij => [(a, fst ij); (b, snd ij)]) (prods (seq 0 (size (pdeg (z1 s)) b)) (seq 0 (size (pdeg (z0 s)) a))).
Proof.
  unfold CT, cells_t, deg2, prods. cbn [sizes]. generalize (size (pdeg (z0 s)) a) (size (pdeg (z1 s)) b). intros n m.
  replace (SpaceSpec.grid [n; m]) with (flat_map (fun r => map (fun i => i :: r) (seq 0 n)) (map (fun i => [i]) (seq 0 m))) by (cbn [SpaceSpec.grid flat_map]; rewrite app_nil_r; reflexivity).
  rewrite flat_map_map', !map_flat_map'. apply flat_map_ext. intros j. rewrite !map_map. reflexivity.
Qed.
Lemma CT_len s a b : length (CT s a b) = (size (pdeg (z0 s)) a * size (pdeg (z1 s)) b)%nat.
Proof. rewrite CT_prods, map_length, prods_len, !seq_length. lia. Qed.
Definition basis_t (P : Poly1) (b : bool) (x : list R) : list (list R) := if b then edge_basis P x else node_basis P x.
Lemma basis_lrows P b x : basis_t P b x = lrows (fun i => factor_fn P (b, i)) (seq 0 (size (pdeg P) b)) x.
Proof. destruct b; unfold basis_t; [reflexivity|]. rewrite node_lrows. reflexivity. Qed.
Lemma kron_rows s a b xi et : kron (basis_t (z1 s) b et) (basis_t (z0 s) a xi) = rows (cf s) (CT s a b) (mesh2 xi et).
Proof.
  rewrite !basis_lrows, kron2, CT_prods. unfold rows. rewrite map_map. apply map_ext. intros [i j]. apply map_ext. intros q. reflexivity.
Qed.
(* the axis d of the edges of the first and second component: ax o false, ax o true *)
Definition CE (s : Space2) (d : bool) : list cell := CT s (negb d) d.
Lemma r2basis0_rows s xi et : r2basis0 s xi et = rows (cf s) (CT s false false) (mesh2 xi et).
Proof. apply (kron_rows s false false). Qed.
Lemma r2basis2_rows s xi et : r2basis2 s xi et = rows (cf s) (CT s true true) (mesh2 xi et).
Proof. apply (kron_rows s true true). Qed.
Lemma r2basis1_rows o s xi et : r2basis1 o s xi et =
  (rows (cf s) (CE s (ax o false)) (mesh2 xi et), rows (cf s) (CE s (ax o true)) (mesh2 xi et)).
Proof.
  unfold r2basis1. pose proof (kron_rows s true false xi et) as X. pose proof (kron_rows s false true xi et) as Y. cbn [basis_t] in X, Y.
  rewrite X, Y. destruct o; reflexivity.
Qed.
Lemma CE_first o s : length (CE s (ax o false)) = fst (r2num o s).
Proof. unfold CE. rewrite CT_len. destruct o; cbn [ax negb size r2num fst]; lia. Qed.
Lemma CE_second o s : length (CE s (ax o true)) = snd (r2num o s).
Proof. unfold CE. rewrite CT_len. destruct o; cbn [ax negb size r2num snd]; lia. Qed.

(* ---------- the functions of cochains as sums over these lists ---------- *)
Definition csum2 (s : Space2) (L : list cell) (c : list R) (q : R * R) : R := rsum (combine L c) (fun ac => snd ac * cf s (fst ac) q).
Lemma hat0_csum s c q : r2hat0 s c (fst q) (snd q) = csum2 s (CT s false false) c q.
Proof. unfold r2hat0, expand2, csum2, cells, nodes2. cbn [flat_map]. rewrite app_nil_r. reflexivity. Qed.
Lemma hat2_csum s c q : r2hat2 s c (fst q) (snd q) = csum2 s (CT s true true) c q.
Proof. unfold r2hat2, expand2, csum2, cells, faces2. cbn [flat_map]. rewrite app_nil_r. reflexivity. Qed.
Lemma CE_along s d c : In c (CE s d) -> along2 c = d.
Proof. unfold CE. rewrite CT_prods. intros I. apply in_map_iff in I as ([i j] & <- & _). unfold along2. cbn [map fst]. destruct d; reflexivity. Qed.
Lemma edges_CE o s : cells (deg2 s) (edges2 o) = CE s (ax o false) ++ CE s (ax o true).
Proof. destruct o; unfold cells, edges2, edges2_inner, edges2_outer; cbn [flat_map]; rewrite app_nil_r; reflexivity. Qed.
Lemma sel_sum s (d d' : bool) (l : list R) q : rsum (combine (CE s d) l) (fun ac => if Bool.eqb (along2 (fst ac)) d' then snd ac * fn2 s (fst ac) (fst q) (snd q) else 0) =
  if Bool.eqb d d' then csum2 s (CE s d) l q else 0.
Proof.
  destruct (Bool.eqb d d') eqn:E.
  - apply rsum_ext. intros [c x] I. apply in_combine_l, CE_along in I. cbn [fst snd]. rewrite I, E. reflexivity.
  - apply rsum_zero'. intros [c x] I. apply in_combine_l, CE_along in I. cbn [fst snd]. rewrite I, E. reflexivity.
Qed.
Lemma hat1_first o s c q : r2hat1 o s c (ax o false) (fst q) (snd q) = csum2 s (CE s (ax o false)) (firstn (fst (r2num o s)) c) q.
Proof.
  unfold r2hat1, expand2. rewrite edges_CE, combine_app_l, ReconProofs.rsum_app, !sel_sum, <- CE_first.
  unfold csum2. rewrite combine_firstn_l. destruct o; cbn [ax negb Bool.eqb]; ring.
Qed.
Lemma hat1_second o s c q : r2hat1 o s c (ax o true) (fst q) (snd q) = csum2 s (CE s (ax o true)) (skipn (fst (r2num o s)) c) q.
Proof.
  unfold r2hat1, expand2. rewrite edges_CE, combine_app_l, ReconProofs.rsum_app, !sel_sum, <- CE_first.
  destruct o; cbn [ax negb Bool.eqb]; ring.
Qed.

(* ---------- reconstruction ---------- *)
Lemma r2recon0_map s xi et c : r2recon0 s xi et c = map (fun q => r2hat0 s c (fst q) (snd q)) (mesh2 xi et).
Proof. unfold r2recon0. rewrite r2basis0_rows, einsum2. apply map_ext. intros q. symmetry. apply hat0_csum. Qed.
Theorem r2recon0_ok s xi et c : array2 xi et (r2recon0 s xi et c) (fun x y v => v = r2hat0 s c x y).
Proof. rewrite r2recon0_map. apply map_array2. intros x y _ _. reflexivity. Qed.
Lemma r2uv_map o s xi et c : r2uv o s xi et c =
  map (fun q => (r2hat1 o s c (ax o false) (fst q) (snd q), r2hat1 o s c (ax o true) (fst q) (snd q))) (mesh2 xi et).
Proof.
  unfold r2uv. rewrite r2basis1_rows, !einsum2, TreconProofs.combine_maps. apply map_ext. intros q. rewrite hat1_first, hat1_second. reflexivity.
Qed.
Definition r2val1 (o : orient) s (e : El2) c (q : R * R) : R * R :=
  r2value1 o (el_orth e) (tiJ (el_J e) q) (r2hat1 o s c (ax o false) (fst q) (snd q), r2hat1 o s c (ax o true) (fst q) (snd q)).
Lemma r2recon1_map o s xi et e c : r2recon1 o s xi et e c = map (r2val1 o s e c) (mesh2 xi et).
Proof. unfold r2recon1. rewrite r2uv_map, map2_self. reflexivity. Qed.
(* orthogonal elements *)
Lemma value1_orth o orth (J : mat22) t : (orth = true -> diagonal2 J) -> r2value1 o orth (ct2_inverse J) t = tvalue1 o (ct2_inverse J) t.
Proof.
  destruct orth; intros D; [|destruct J as [[a b] [c d]], t, o; reflexivity]. specialize (D eq_refl). destruct J as [[a b] [c d]], t as [u v]. destruct D as [D1 D2].
  cbn [fst snd] in D1, D2. subst b c. cbn [ct2_inverse r2value1 tvalue1]. destruct o; f_equal; ring.
Qed.
Lemma r2val1_t o s e c xi et q : orth_ok e xi et -> In (fst q) xi -> In (snd q) et ->
  r2val1 o s e c q = tvalue1 o (tiJ (el_J e) q) (r2hat1 o s c (ax o false) (fst q) (snd q), r2hat1 o s c (ax o true) (fst q) (snd q)).
Proof. intros D X Y. unfold r2val1, tiJ. apply value1_orth. intros E. apply (D E); assumption. Qed.
Lemma r2val1_pulls o s e c xi et x y : regular e xi et -> orth_ok e xi et -> In x xi -> In y et -> field1 o s c (el_J e) x y (r2val1 o s e c (x, y)).
Proof.
  intros N D X Y. rewrite (r2val1_t o s e c xi et) by assumption. unfold field1, tiJ, at2. cbn [fst snd].
  apply (value_pulls o (el_J e x y) (fun d => r2hat1 o s c d x y)). apply N; assumption.
Qed.
Theorem r2recon1_ok o s xi et e c : regular e xi et -> orth_ok e xi et -> array2 xi et (r2recon1 o s xi et e c) (field1 o s c (el_J e)).
Proof. intros N D. rewrite r2recon1_map. apply map_array2. intros x y X Y. apply (r2val1_pulls o s e c xi et); assumption. Qed.
Lemma r2recon2_map s xi et e c : r2recon2 s xi et e c = map (fun q => r2hat2 s c (fst q) (snd q) * ct2_inverse_Jacobian (tiJ (el_J e) q)) (mesh2 xi et).
Proof.
  unfold r2recon2. rewrite r2basis2_rows, map2_rows, einsum2. apply map_ext. intros q. rewrite (fac_out _ (fun a => cf s a q)). rewrite hat2_csum. reflexivity.
Qed.
Theorem r2recon2_ok s xi et e c : regular e xi et -> array2 xi et (r2recon2 s xi et e c) (field2 s c (el_J e)).
Proof.
  intros N. rewrite r2recon2_map. apply map_array2. intros x y X Y. unfold field2, tpulls2, tiJ, at2. cbn [fst snd]. rewrite inv_det by (apply N; assumption).
  field. apply N; assumption.
Qed.

(* ---------- reconstruction matrices ---------- *)
Theorem r2rm0_ok s xi et c : times (r2rm0 s xi et) c = r2recon0 s xi et c.
Proof.
  unfold r2rm0. rewrite r2basis0_rows, transpose2, r2recon0_map. unfold times. rewrite map_map. apply map_ext. intros q. rewrite row_times. symmetry. apply hat0_csum.
Qed.
Theorem r2rm2_ok s xi et e c : times (r2rm2 s xi et e) c = r2recon2 s xi et e c.
Proof.
  unfold r2rm2. rewrite r2basis2_rows, transpose2, (scale2 (cf s)), r2recon2_map. unfold times. rewrite map_map. apply map_ext. intros q.
  rewrite row_times, (fac_out _ (fun a => cf s a q)), hat2_csum. reflexivity.
Qed.
Lemma zeros_rows s L pts : zeros (map (fun q => map (fun a => cf s a q) L) pts) = map (fun q => map (fun a => cf s a q * 0) L) pts.
Proof. unfold zeros. rewrite map_map. apply map_ext. intros q. rewrite map_map. apply map_ext. intros a. ring. Qed.
Theorem r2rm1_ok o s xi et e c : match r2rm1 o s xi et e with (a, b) => components2 (r2recon1 o s xi et e c) (times a c) (times b c) end.
Proof.
  unfold r2rm1. rewrite r2basis1_rows, !transpose2, !map_map, r2recon1_map. unfold components2. rewrite !map_map. unfold times. cbv zeta.
  destruct o; destruct (el_orth e) eqn:E; rewrite ?(scale2 (cf s)), ?(opp_rows (fun a q => cf s a q * _)), ?zeros_rows, !hstack2_map, !map_map; split; apply map_ext; intros q;
    rewrite row_times_app, CE_first, ?(fac_out _ (fun a => cf s a q)), ?(fac_out' _ (fun a => cf s a q)); fold (csum2 s (CE s (ax Outer false)) (firstn (fst (r2num Outer s)) c) q);
    fold (csum2 s (CE s (ax Outer true)) (skipn (fst (r2num Outer s)) c) q); fold (csum2 s (CE s (ax Inner false)) (firstn (fst (r2num Inner s)) c) q);
    fold (csum2 s (CE s (ax Inner true)) (skipn (fst (r2num Inner s)) c) q); rewrite <- hat1_first, <- hat1_second;
    unfold r2val1; rewrite E; unfold r2value1; destruct (tiJ (el_J e) q) as [[a00 a01] [a10 a11]]; cbn [fst snd]; ring.
Qed.

(* ---------- vectorized ---------- *)
Lemma vec_of_map {A} hom (h : El2 -> A) els : (hom = true -> forall e e', In e els -> In e' els -> h e = h e') -> vec_of hom h els = map h els.
Proof.
  unfold vec_of. destruct hom; intros H; [|reflexivity]. specialize (H eq_refl). destruct els as [|e els]; [reflexivity|]. apply map_ext_in. intros e' I. apply H; [left; reflexivity|exact I].
Qed.
Lemma map2_map_l {A B C D} (f : B -> C -> D) (g : A -> B) l m : map2 f (map g l) m = map2 (fun a c => f (g a) c) l m.
Proof. revert m. induction l as [|a l IH]; intros [|c m]; try reflexivity. cbn. rewrite IH. reflexivity. Qed.
Lemma map2_ext_l {A B C} (f f' : A -> B -> C) l m : (forall a b, In a l -> f a b = f' a b) -> map2 f l m = map2 f' l m.
Proof.
  revert m. induction l as [|a l IH]; intros [|b m] H; try reflexivity. cbn [map2]. rewrite H by (left; reflexivity). f_equal. apply IH. intros a' b' I. apply H. right. exact I.
Qed.
Lemma alike_mesh {A} (h : mat22 -> A) els xi et e e' : alike els xi et -> In e els -> In e' els ->
  map (fun q => h (at2 (el_J e) q)) (mesh2 xi et) = map (fun q => h (at2 (el_J e') q)) (mesh2 xi et).
Proof.
  intros H I I'. apply map_ext_in. intros q Hq. unfold mesh2 in Hq. apply in_flat_map in Hq as (y & Hy & Hq). apply in_map_iff in Hq as (x & <- & Hx).
  unfold at2. cbn [fst snd]. rewrite (H e e' I I' x y Hx Hy). reflexivity.
Qed.
Definition orths_ok (els : list El2) xi et := forall e, In e els -> orth_ok e xi et.
Theorem r2vec1_ok o s xi et hom els cs : (hom = true -> alike els xi et) -> orths_ok els xi et ->
  r2vec1 o s xi et hom els cs = map2 (fun e c => r2recon1 o s xi et e c) els cs.
Proof.
  intros H D. unfold r2vec1. rewrite vec_of_map.
  - rewrite map2_map_l. apply map2_ext_l. intros e c I. rewrite map2_map_l. unfold r2recon1. rewrite r2uv_map, !map2_self. apply map_ext_in. intros q Hq.
    assert (M : In (fst q) xi /\ In (snd q) et).
    { unfold mesh2 in Hq. apply in_flat_map in Hq as (y & Hy & Hq). apply in_map_iff in Hq as (x & <- & Hx). split; assumption. }
    unfold tiJ. rewrite !value1_orth; [reflexivity| |].
    + intros E. apply (D e I E); apply M.
    + intros E. unfold all_orth in E. rewrite forallb_forall in E. apply (D e I (E e I)); apply M.
  - intros E e e' I I'. unfold tiJ. apply (alike_mesh ct2_inverse els); auto.
Qed.
Theorem r2vec2_ok s xi et hom els cs : (hom = true -> alike els xi et) -> r2vec2 s xi et hom els cs = map2 (fun e c => r2recon2 s xi et e c) els cs.
Proof.
  intros H. unfold r2vec2. rewrite vec_of_map; [rewrite map2_map_l; reflexivity|]. intros E e e' I I'. unfold tiJ. apply (alike_mesh (fun m => ct2_inverse_Jacobian (ct2_inverse m)) els); auto.
Qed.
(* the array is the cochain of the elements in their order, if the dict is *)
Lemma cochain_at_app l k c r : ~ In k (map fst l) -> cochain_at (l ++ (k, c) :: r) k = c.
Proof.
  induction l as [|[k' c'] l IH]; cbn [map fst app cochain_at]; intros N.
  - rewrite Nat.eqb_refl. reflexivity.
  - destruct (Nat.eqb_spec k' k); [exfalso; apply N; left; assumption|]. apply IH. intros I. apply N. right. exact I.
Qed.
Theorem array_order local ids : NoDup ids -> map fst local = ids -> cochain_array local = map (cochain_at local) ids.
Proof.
  intros ND <-. unfold cochain_array.
  assert (forall pre, NoDup (map fst (pre ++ local)) -> map snd local = map (cochain_at (pre ++ local)) (map fst local)) as G; [|apply (G []); exact ND].
  clear ND. induction local as [|[k c] l IH]; intros pre ND; [reflexivity|]. cbn [map fst snd]. f_equal.
  - symmetry. apply cochain_at_app. rewrite map_app in ND. cbn [map fst] in ND. apply NoDup_remove_2 in ND. intros I. apply ND. apply in_or_app. left. exact I.
  - rewrite (IH (pre ++ [(k, c)])); rewrite <- app_assoc; [reflexivity|exact ND].
Qed.
