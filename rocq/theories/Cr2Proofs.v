(* Cross products in the plane are integrals. *)
From Coq Require Import Reals List Lia Lra Arith ZArith Bool.
From Verif Require Import TfiModel TfiSpec CtModel CtSpec RingSum SpaceSpec DiscModel DiscSpec DiscProofs DiscProofs2 DiscProofs3 Disc2Model Disc2Spec Disc2Proofs.
From Verif Require Import ReconModel ReconSpec ReconProofs ReconProofs2 ReconProofs3 ReconProofs4 ReconProofs5 CrossModel CrossSpec CrossProofs CrossProofs2.
From Verif Require Import TriModel TriSpec TriProofs TdiscModel TdiscSpec TreconModel TreconSpec TreconProofs TreconProofs3 TreconProofs4.
From Verif Require Import Rec2Model Rec2Spec Rec2Proofs Rec2Proofs2 Cr2Model Cr2Spec.
Import ListNotations.
Open Scope R_scope.

(* ---------- the array ---------- *)
Lemma neg_tab ni nj nk f : neg3 (tab3 ni nj nk f) = tab3 ni nj nk (fun i j k => - f i j k).
Proof. unfold neg3, tab3. rewrite map_map. apply map_ext. intros i. rewrite map_map. apply map_ext. intros j. rewrite map_map. reflexivity. Qed.
Lemma cp2_tab w uv ab W ni nj nk : exists f, cp2 w uv ab W ni nj nk = tab3 ni nj nk f.
Proof. destruct uv as [u v], ab as [a b]. unfold cp2, einsum4. rewrite neg_tab, plus_tab. eexists. reflexivity. Qed.
Lemma cp2_shape w uv ab W ni nj nk : has_shape3 (cp2 w uv ab W ni nj nk) ni nj nk.
Proof. destruct (cp2_tab w uv ab W ni nj nk) as [f ->]. apply shape_tab3. Qed.
Lemma tri_neg ni nj nk f a b c : length a = ni -> length b = nj -> length c = nk ->
  CrossSpec.tri (neg3 (tab3 ni nj nk f)) a b c = - CrossSpec.tri (tab3 ni nj nk f) a b c.
Proof.
  intros La Lb Lc. rewrite neg_tab, !tri_tab by assumption.
  replace (- sq ni (fun i => sq nj (fun j => sq nk (fun k => f i j k * nth i a 0 * nth j b 0 * nth k c 0))))
    with (-1 * sq ni (fun i => sq nj (fun j => sq nk (fun k => f i j k * nth i a 0 * nth j b 0 * nth k c 0)))) by ring.
  rewrite sq_mult_l. apply sq_ext. intros i _. rewrite sq_mult_l. apply sq_ext. intros j _. rewrite sq_mult_l. apply sq_ext. intros k _. ring.
Qed.
Section Points.
Variables (P : list (R * R)) (W : list R).
Lemma pt4 (f g h : R * R -> R) : rsum (combine (combine (combine (map f P) (map g P)) (map h P)) W) (fun r => match r with (x, y, z, t) => x * y * z * t end) =
  rsum (combine P W) (fun pw => f (fst pw) * g (fst pw) * h (fst pw) * snd pw).
Proof. rewrite !CrossProofs.combine_maps, combine_map_l, ReconProofs.rsum_map. reflexivity. Qed.
Lemma tri_cp2 w u v a b ni nj nk cw cu ce (fw : R * R -> R) (fu fe : R * R -> R * R) :
  length cw = ni -> length cu = nj -> length ce = nk ->
  times w cw = map fw P -> times u cu = map (fun q => fst (fu q)) P -> times v cu = map (fun q => snd (fu q)) P ->
  times a ce = map (fun q => fst (fe q)) P -> times b ce = map (fun q => snd (fe q)) P ->
  CrossSpec.tri (cp2 w (u, v) (a, b) W ni nj nk) cw cu ce =
  rsum (combine P W) (fun pw => fw (fst pw) * (fst (fu (fst pw)) * snd (fe (fst pw)) - snd (fu (fst pw)) * fst (fe (fst pw))) * snd pw).
Proof.
  intros Lw Lu Le Tw Tu Tv Ta Tb. unfold cp2.
  transitivity (- CrossSpec.tri (einsum4 w v a W ni nj nk) cw cu ce + CrossSpec.tri (einsum4 w u b W ni nj nk) cw cu ce).
  { unfold einsum4. rewrite neg_tab, tri_plus, <- neg_tab, tri_neg by assumption. reflexivity. }
  rewrite !tri_einsum by assumption. rewrite Tw, Tu, Tv, Ta, Tb, !pt4.
  match goal with |- - ?x + ?y = _ => replace (- x + y) with (y - x) by ring end.
  rewrite <- rsum_minus. apply rsum_ext. intros [p t] _. cbn [fst snd]. ring.
Qed.
End Points.
Lemma detW_sum r0 r1 J (f : R * R -> R) : rule_ok r0 -> rule_ok r1 ->
  rsum (combine (tmesh r0 r1) (detW r0 r1 J)) (fun pw => f (fst pw) * snd pw) = tquad r0 r1 (fun x y => det2 (J x y) * f (x, y)).
Proof.
  intros H0 H1. rewrite tquad_points by assumption. unfold wp2, detW. generalize (tweights r0 r1) (tmesh r0 r1). intros w P. revert w.
  induction P as [|p P IH]; intros [|a w]; try reflexivity. cbn [map map2 combine]. rewrite !rsum_cons, IH. cbn [fst snd]. rewrite det2_ct. destruct p as [x y]. unfold at2. cbn [fst snd]. ring.
Qed.
Lemma plane_triple (w : R) (u e : plane) : dot (cross (up w) (flat u)) (flat e) = w * (fst u * snd e - snd u * fst e).
Proof. destruct u as [u0 u1], e as [e0 e1]. unfold dot, cross, csum, up, flat. cbn. ring. Qed.

(* ---------- structured elements ---------- *)
Lemma numv_cells o s : length (cells (deg2 s) (edges2 o)) = numv o s.
Proof. rewrite edges_CE, app_length, CE_first, CE_second. reflexivity. Qed.
Lemma numw_cells k s : length (cells (deg2 s) (match k with sk0 => nodes2 | sk2 => faces2 end)) = numw k s.
Proof. destruct k; unfold cells, nodes2, faces2; cbn [flat_map]; rewrite app_nil_r.
  - etransitivity; [exact (CT_len s false false)|]. cbn [size numw]. lia.
  - etransitivity; [exact (CT_len s true true)|]. cbn [size numw]. lia.
Qed.
Section Element.
Variables (r0 r1 : rule) (e : El2).
Hypotheses (H0 : rule_ok r0) (H1 : rule_ok r1) (N : regular e (fst r0) (fst r1)) (D : orth_ok e (fst r0) (fst r1)).
Lemma rmw_times k s c w : scalar_at k s (fst r0) (fst r1) (el_J e) c w -> times (rmw k s (fst r0) (fst r1) e) c = map (fun q => w (fst q) (snd q)) (tmesh r0 r1).
Proof.
  intros (L & V). unfold tmesh. destruct k; cbn [rmw].
  - rewrite r2rm0_ok, r2recon0_map. apply map_ext_in. intros q I. destruct (in_mesh2 _ _ _ I) as [X Y]. symmetry. apply (V _ _ X Y).
  - rewrite r2rm2_ok, r2recon2_map. apply map_ext_in. intros q I. destruct (in_mesh2 _ _ _ I) as [X Y]. assert (E := V _ _ X Y). assert (Nq := N _ _ X Y). cbv beta in E, Nq.
    unfold field2, tpulls2 in E. unfold tiJ, at2. destruct q as [x y]. cbn [fst snd] in *. rewrite inv_det by exact Nq. rewrite <- E. field. exact Nq.
Qed.
Lemma rm1_times o s c v : vector_at o s (fst r0) (fst r1) (el_J e) c v ->
  match r2rm1 o s (fst r0) (fst r1) e with (a, b) =>
    times a c = map (fun q => fst (v (fst q) (snd q))) (tmesh r0 r1) /\ times b c = map (fun q => snd (v (fst q) (snd q))) (tmesh r0 r1) end.
Proof.
  intros (L & V). assert (K := r2rm1_ok o s (fst r0) (fst r1) e c). destruct (r2rm1 o s (fst r0) (fst r1) e) as [a b]. destruct K as [-> ->].
  assert (X : r2recon1 o s (fst r0) (fst r1) e c = map (fun q => v (fst q) (snd q)) (tmesh r0 r1)).
  { rewrite r2recon1_map. apply map_ext_in. intros [x y] I. destruct (in_mesh2 _ _ _ I) as [X Y]. cbn [fst snd] in *.
    apply (pulls1_inj o (el_J e x y) _ _ (fun d => r2hat1 o s c d x y)); [apply (N x y X Y)|exact (r2val1_pulls o s e c _ _ x y N D X Y)|exact (V x y X Y)]. }
  rewrite X, !map_map. split; reflexivity.
Qed.
Theorem cross_2d_ok k ou oe sw su se cw cu ce w u v :
  scalar_at k sw (fst r0) (fst r1) (el_J e) cw w -> vector_at ou su (fst r0) (fst r1) (el_J e) cu u -> vector_at oe se (fst r0) (fst r1) (el_J e) ce v ->
  CrossSpec.tri (cross_2d k ou oe sw su se r0 r1 e) cw cu ce = triple2 r0 r1 (el_J e) w u v.
Proof.
  intros Sw Su Se. assert (Tw := rmw_times k sw cw w Sw). assert (Tu := rm1_times ou su cu u Su). assert (Te := rm1_times oe se ce v Se).
  destruct Sw as (Lw & _), Su as (Lu & _), Se as (Le & _). rewrite numw_cells in Lw. rewrite numv_cells in Lu, Le.
  unfold cross_2d. destruct (r2rm1 ou su (fst r0) (fst r1) e) as [ua ub]. destruct (r2rm1 oe se (fst r0) (fst r1) e) as [a b]. destruct Tu as [Ta Tb], Te as [Tc Td].
  rewrite (tri_cp2 (tmesh r0 r1) _ _ _ _ _ _ _ _ _ _ _ _ (fun q => w (fst q) (snd q)) (fun q => u (fst q) (snd q)) (fun q => v (fst q) (snd q)) Lw Lu Le Tw Ta Tb Tc Td).
  unfold triple2. rewrite (detW_sum r0 r1 (el_J e) (fun q => w (fst q) (snd q) * (fst (u (fst q) (snd q)) * snd (v (fst q) (snd q)) - snd (u (fst q) (snd q)) * fst (v (fst q) (snd q)))) H0 H1).
  apply tquad_ext. intros x y _ _. cbn [fst snd]. rewrite plane_triple. reflexivity.
Qed.
End Element.
(* the force is orthogonal to u *)
Lemma triple2_skew r0 r1 J w u v : triple2 r0 r1 J w u v = - triple2 r0 r1 J w v u.
Proof.
  unfold triple2, tquad. replace (- rsum (combine (fst r0) (snd r0)) _) with (-1 * rsum (combine (fst r0) (snd r0)) (fun a => rsum (combine (fst r1) (snd r1)) (fun b =>
    det2 (J (fst a) (fst b)) * dot (cross (up (w (fst a) (fst b))) (flat (v (fst a) (fst b)))) (flat (u (fst a) (fst b))) * (snd a * snd b)))) by ring.
  rewrite rsum_mult_l. apply rsum_ext. intros a _. rewrite rsum_mult_l. apply rsum_ext. intros b _. rewrite !plane_triple. ring.
Qed.

(* ---------- triangles ---------- *)
Section Triangle.
Variables (r0 r1 : rule) (J : ejac2) (M : smap) (c : nat).
Hypotheses (H0 : rule_ok r0) (H1 : rule_ok r1) (N : on_grid2 (fst r0) (fst r1) (fun x y => det2 (J x y) <> 0)).
Lemma trm1_times o P x v : tvector_at o P M c (fst r0) (fst r1) J x v ->
  match trm1 o P M c (fst r0) (fst r1) J with (a, b) =>
    times a x = map (fun q => fst (v (fst q) (snd q))) (tmesh r0 r1) /\ times b x = map (fun q => snd (v (fst q) (snd q))) (tmesh r0 r1) end.
Proof.
  intros (L & V). assert (K := trm1_ok o P M c (fst r0) (fst r1) J x). destruct (trm1 o P M c (fst r0) (fst r1) J) as [a b]. destruct K as [-> ->].
  assert (X : trecon1 o P M c (fst r0) (fst r1) J x = map (fun q => v (fst q) (snd q)) (tmesh r0 r1)).
  { rewrite trecon1_map. apply map_ext_in. intros [s t] I. destruct (in_mesh2 _ _ _ I) as [X Y]. cbn [fst snd] in *.
    apply (pulls1_inj o (J s t) _ _ (fun d => that1 o P M c x d s t)); [apply (N s t X Y)| |exact (V s t X Y)].
    unfold val1, tiJ, at2. cbn [fst snd]. apply (value_pulls o (J s t) (fun d => that1 o P M c x d s t)). apply (N s t X Y). }
  rewrite X, !map_map. split; reflexivity.
Qed.
Theorem cross_tri_ok ou oe Pw Pu Pe cw cu ce w u v :
  tscalar_at Pw (fst r0) (fst r1) cw w -> tvector_at ou Pu M c (fst r0) (fst r1) J cu u -> tvector_at oe Pe M c (fst r0) (fst r1) J ce v ->
  CrossSpec.tri (cross_tri ou oe Pw Pu Pe M r0 r1 J c) cw cu ce = triple2 r0 r1 J w u v.
Proof.
  intros Sw Su Se. assert (Tu := trm1_times ou Pu cu u Su). assert (Te := trm1_times oe Pe ce v Se).
  destruct Sw as (Lw & Sw), Su as (Lu & _), Se as (Le & _).
  assert (Tw : times (trm0 Pw (fst r0) (fst r1)) cw = map (fun q => w (fst q) (snd q)) (tmesh r0 r1)).
  { rewrite trm0_ok, trecon0_map. apply map_ext_in. intros q I. destruct (in_mesh2 _ _ _ I) as [X Y]. symmetry. apply (Sw _ _ X Y). }
  unfold cross_tri. destruct (trm1 ou Pu M c (fst r0) (fst r1) J) as [ua ub]. destruct (trm1 oe Pe M c (fst r0) (fst r1) J) as [a b]. destruct Tu as [Ta Tb], Te as [Tc Td].
  rewrite (tri_cp2 (tmesh r0 r1) _ _ _ _ _ _ _ _ _ _ _ _ (fun q => w (fst q) (snd q)) (fun q => u (fst q) (snd q)) (fun q => v (fst q) (snd q)) Lw Lu Le Tw Ta Tb Tc Td).
  unfold triple2. rewrite (detW_sum r0 r1 J (fun q => w (fst q) (snd q) * (fst (u (fst q) (snd q)) * snd (v (fst q) (snd q)) - snd (u (fst q) (snd q)) * fst (v (fst q) (snd q)))) H0 H1).
  apply tquad_ext. intros x y _ _. cbn [fst snd]. rewrite plane_triple. reflexivity.
Qed.
End Triangle.
