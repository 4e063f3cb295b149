(* Energies of forms on a 2D mesh. *)
From Coq Require Import Reals List Lia Lra Arith ZArith Bool.
From Verif Require Import TfiModel CtModel RingSum SpaceSpec SpaceProofs DiscModel DiscSpec DiscProofs DiscProofs2 DiscProofs3 Disc2Model Disc2Spec Disc2Proofs.
From Verif Require Import ReconModel ReconSpec ReconProofs ReconProofs2 ReconProofs3 ReconProofs4 ReconProofs5.
From Verif Require Import TriModel TriSpec TriProofs TdiscModel TdiscSpec TreconModel TreconSpec TreconProofs TreconProofs3 TreconProofs4 Rec2Model Rec2Spec Rec2Proofs Rec2Proofs2.
Import ListNotations.
Open Scope R_scope.

Theorem r2wedge02_ok r0 r1 so ss co cs : rule_ok r0 -> rule_ok r1 -> bilinear (r2wedge02 so ss r0 r1) co cs = tquad r0 r1 (fun x y => r2hat0 so co x y * r2hat2 ss cs x y).
Proof.
  intros H0 H1. unfold r2wedge02. rewrite r2basis0_rows, r2basis2_rows. rewrite (tweights_map2 r0 r1 H0 H1).
  rewrite (gram2 (fun q w => w)), bilinear_kmat, core2, tquad_points by assumption.
  apply rsum_ext. intros [q w] _. cbn [fst snd]. rewrite hat0_csum, hat2_csum. unfold csum2. ring.
Qed.
Lemma map2_combine {A B C} (f : A -> B -> C) l m : map2 f l m = map (fun ab => f (fst ab) (snd ab)) (combine l m).
Proof. revert m. induction l as [|a l IH]; intros [|b m]; try reflexivity. cbn. rewrite IH. reflexivity. Qed.
Lemma combine_combine {A B C} (f : A -> B -> C) l m : combine l (map2 f l m) = map (fun ab => (fst ab, f (fst ab) (snd ab))) (combine l m).
Proof. revert m. induction l as [|a l IH]; intros [|b m]; try reflexivity. cbn. rewrite IH. reflexivity. Qed.
Lemma combine_mapr {A B C} (f : B -> C) (l : list A) (m : list B) : combine l (map f m) = map (fun p => (fst p, f (snd p))) (combine l m).
Proof. revert m. induction l as [|a l IH]; intros [|b m]; try reflexivity. cbn. f_equal. apply IH. Qed.
Lemma map_map2' {A B C D} (g : C -> D) (f : A -> B -> C) l m : map g (map2 f l m) = map2 (fun a b => g (f a b)) l m.
Proof. revert m. induction l as [|a l IH]; intros [|b m]; try reflexivity. cbn. f_equal. apply IH. Qed.
Lemma in_comb {A B} (l : list A) (m : list B) ab : In ab (combine l m) -> In (fst ab) l.
Proof. destruct ab as [a b]. intros I. apply in_combine_l in I. exact I. Qed.
Lemma combine_three (w' : list R) (pts : list (R * R)) (d h : R * R -> R) :
  lsum (map2 (fun x dw => x * fst dw * snd dw) (map h pts) (combine (map d pts) w')) = rsum (combine pts w') (fun qw => snd qw * (d (fst qw) * h (fst qw))).
Proof.
  revert w'. induction pts as [|q pts IH]; intros [|w W]; try reflexivity. cbn [map combine map2]. rewrite rsum_cons, <- IH. cbn [fst snd lsum fold_right]. unfold lsum. cbn [fold_right]. ring.
Qed.
Section Energies.
Variables (r0 r1 : rule) (els : list El2) (cs : list (list R)) (s : Space2).
Hypotheses (H0 : rule_ok r0) (H1 : rule_ok r1).
Notation g0 := (fst r0).
Notation g1 := (fst r1).
(* element by element *)
Theorem r2energy0 n : r2energy_s n r0 r1 els (map (r2recon0 s g0 g1) cs) =
  rsum (combine els cs) (fun ec => tquad r0 r1 (fun x y => det2 (el_J (fst ec) x y) * r2hat0 s (snd ec) x y ^ n)).
Proof.
  unfold r2energy_s. rewrite lsum_map2'. rewrite combine_mapr, ReconProofs.rsum_map. apply rsum_ext. intros [e c] _. cbn [fst snd]. rewrite r2recon0_map.
  apply (energy_s r0 r1 (el_J e) H0 H1 n (fun q => r2hat0 s c (fst q) (snd q))).
Qed.
Hypothesis N : forall e, In e els -> regular e g0 g1.
Theorem r2energy2 n (v : El2 -> list R -> R -> R -> R) : (forall e c, In e els -> In c cs -> on_grid2 g0 g1 (fun x y => field2 s c (el_J e) x y (v e c x y))) ->
  r2energy_s n r0 r1 els (map2 (fun e c => r2recon2 s g0 g1 e c) els cs) = rsum (combine els cs) (fun ec => tquad r0 r1 (fun x y => det2 (el_J (fst ec) x y) * v (fst ec) (snd ec) x y ^ n)).
Proof.
  intros V. unfold r2energy_s. rewrite lsum_map2', combine_combine, ReconProofs.rsum_map. apply rsum_ext. intros [e c] I. cbn [fst snd]. pose proof (in_combine_l _ _ _ _ I) as Ie.
  pose proof (in_combine_r _ _ _ _ I) as Ic. rewrite r2recon2_map.
  etransitivity; [apply (energy_s r0 r1 (el_J e) H0 H1 n (fun q => r2hat2 s c (fst q) (snd q) * ct2_inverse_Jacobian (tiJ (el_J e) q)))|]. apply tquad_ext. intros x y X Y. f_equal. f_equal.
  unfold tiJ, at2. cbn [fst snd]. pose proof (N e Ie x y X Y) as Nx. cbv beta in Nx. rewrite inv_det by exact Nx. pose proof (V e c Ie Ic x y X Y) as Q. unfold field2, tpulls2 in Q. rewrite <- Q. field. exact Nx.
Qed.
Hypothesis D : forall e, In e els -> orth_ok e g0 g1.
Lemma r2val1_is o e c v : In e els -> on_grid2 g0 g1 (fun x y => field1 o s c (el_J e) x y (v x y)) -> on_grid2 g0 g1 (fun x y => r2val1 o s e c (x, y) = v x y).
Proof.
  intros Ie V x y X Y. apply (pulls1_inj o (el_J e x y) _ _ (fun d => r2hat1 o s c d x y)); [apply N; assumption| |apply V; assumption].
  apply (r2val1_pulls o s e c g0 g1); try assumption; [apply N|apply D]; assumption.
Qed.
Theorem r2energy1 n o (v : El2 -> list R -> R -> R -> R * R) : (forall e c, In e els -> In c cs -> on_grid2 g0 g1 (fun x y => field1 o s c (el_J e) x y (v e c x y))) ->
  r2energy_v n r0 r1 els (map2 (fun e c => r2recon1 o s g0 g1 e c) els cs) =
  rsum (combine els cs) (fun ec => tquad r0 r1 (fun x y => det2 (el_J (fst ec) x y) * (fst (v (fst ec) (snd ec) x y) ^ n + snd (v (fst ec) (snd ec) x y) ^ n))).
Proof.
  intros V. unfold r2energy_v. rewrite lsum_map2', combine_combine, ReconProofs.rsum_map. apply rsum_ext. intros [e c] I. cbn [fst snd]. pose proof (in_combine_l _ _ _ _ I) as Ie.
  pose proof (in_combine_r _ _ _ _ I) as Ic. rewrite r2recon1_map. etransitivity; [apply (energy_v r0 r1 (el_J e) H0 H1 n (r2val1 o s e c))|]. apply tquad_ext. intros x y X Y.
  rewrite (r2val1_is o e c (v e c) Ie (V e c Ie Ic) x y X Y). reflexivity.
Qed.
(* vectorized: the same sum *)
Variable hom : bool.
Hypothesis Al : hom = true -> alike els g0 g1.
Lemma energy_vec (h : El2 -> list R -> R * R -> R) : r2energy_vec r0 r1 hom els (map2 (fun e c => map (h e c) (tmesh r0 r1)) els cs) =
  rsum (combine els cs) (fun ec => rsum (wp2 r0 r1) (fun qw => snd qw * (ct2_Jacobian (at2 (el_J (fst ec)) (fst qw)) * h (fst ec) (snd ec) (fst qw)))).
Proof.
  unfold r2energy_vec. rewrite vec_of_map.
  - rewrite map2_map_l, lsum_map2', combine_combine, ReconProofs.rsum_map. apply rsum_ext. intros [e c] _. cbn [fst snd].
    apply (combine_three (tweights r0 r1) (tmesh r0 r1) (fun q => ct2_Jacobian (at2 (el_J e) q)) (h e c)).
  - intros E e e' I I'. apply (alike_mesh ct2_Jacobian els); auto.
Qed.
Lemma scalar_vec n (h : El2 -> list R -> R * R -> R) : r2energy_vec r0 r1 hom els (r2pow_s n (map2 (fun e c => map (h e c) (tmesh r0 r1)) els cs)) =
  r2energy_s n r0 r1 els (map2 (fun e c => map (h e c) (tmesh r0 r1)) els cs).
Proof.
  unfold r2pow_s. rewrite map_map2'. rewrite (map2_ext_l _ (fun e c => map (fun q => h e c q ^ n) (tmesh r0 r1))) by (intros; apply map_map).
  rewrite (energy_vec (fun e c q => h e c q ^ n)). unfold r2energy_s. rewrite lsum_map2', combine_combine, ReconProofs.rsum_map. apply rsum_ext. intros [e c] _. cbn [fst snd].
  rewrite (energy_s r0 r1 (el_J e) H0 H1), tquad_points by assumption. apply rsum_ext. intros [[x y] w] _. cbn [fst snd]. rewrite det2_ct. reflexivity.
Qed.
Lemma vector_vec n (h : El2 -> list R -> R * R -> R * R) : r2energy_vec r0 r1 hom els (r2pow_v n (map2 (fun e c => map (h e c) (tmesh r0 r1)) els cs)) =
  r2energy_v n r0 r1 els (map2 (fun e c => map (h e c) (tmesh r0 r1)) els cs).
Proof.
  unfold r2pow_v. rewrite map_map2'. rewrite (map2_ext_l _ (fun e c => map (fun q => fst (h e c q) ^ n + snd (h e c q) ^ n) (tmesh r0 r1))) by (intros; apply map_map).
  rewrite (energy_vec (fun e c q => fst (h e c q) ^ n + snd (h e c q) ^ n)). unfold r2energy_v. rewrite lsum_map2', combine_combine, ReconProofs.rsum_map. apply rsum_ext. intros [e c] _. cbn [fst snd].
  rewrite (energy_v r0 r1 (el_J e) H0 H1), tquad_points by assumption. apply rsum_ext. intros [[x y] w] _. cbn [fst snd]. rewrite det2_ct. reflexivity.
Qed.
Theorem r2energy_vec0 n : length cs = length els ->
  r2energy_vec r0 r1 hom els (r2pow_s n (r2vec0 s g0 g1 cs)) = r2energy_s n r0 r1 els (map (r2recon0 s g0 g1) cs).
Proof.
  intros L. unfold r2vec0. replace (map (r2recon0 s g0 g1) cs) with (map2 (fun (e : El2) c => map (fun q => r2hat0 s c (fst q) (snd q)) (tmesh r0 r1)) els cs).
  - apply (scalar_vec n (fun _ c q => r2hat0 s c (fst q) (snd q))).
  - clear - L. revert L. generalize els. induction cs as [|c l IH]; intros [|e es] L; try discriminate; [reflexivity|]. cbn [map2 map]. rewrite r2recon0_map, IH by (injection L; auto). reflexivity.
Qed.
Theorem r2energy_vec2 n : r2energy_vec r0 r1 hom els (r2pow_s n (r2vec2 s g0 g1 hom els cs)) = r2energy_s n r0 r1 els (map2 (fun e c => r2recon2 s g0 g1 e c) els cs).
Proof.
  rewrite (r2vec2_ok s g0 g1 hom els cs Al).
  rewrite (map2_ext_l _ (fun e c => map (fun q => r2hat2 s c (fst q) (snd q) * ct2_inverse_Jacobian (tiJ (el_J e) q)) (tmesh r0 r1)) els cs) by (intros; apply r2recon2_map).
  apply (scalar_vec n (fun e c q => r2hat2 s c (fst q) (snd q) * ct2_inverse_Jacobian (tiJ (el_J e) q))).
Qed.
Theorem r2energy_vec1 n o : r2energy_vec r0 r1 hom els (r2pow_v n (r2vec1 o s g0 g1 hom els cs)) = r2energy_v n r0 r1 els (map2 (fun e c => r2recon1 o s g0 g1 e c) els cs).
Proof.
  rewrite (r2vec1_ok o s g0 g1 hom els cs Al D). rewrite (map2_ext_l _ (fun e c => map (r2val1 o s e c) (tmesh r0 r1)) els cs) by (intros; apply r2recon1_map).
  apply (vector_vec n (fun e c => r2val1 o s e c)).
Qed.
End Energies.
(* ---------- L2 energies with another form ---------- *)
Lemma quad_form_bilinear M a b : quad_form M a b = bilinear M a b.
Proof.
  unfold quad_form, bilinear, times. revert a. induction M as [|row M IH]; intros [|x a]; try reflexivity. cbn [map2 map combine]. rewrite rsum_cons, <- IH. unfold lsum at 1. cbn [fold_right fst snd]. f_equal.
  clear. rewrite lsum_map2', rsum_mult_l. apply rsum_ext. intros [m y] _. cbn [fst snd]. ring.
Qed.
Lemma combine_two {A B} (l : list A) (m n : list B) : combine l (combine m n) = map (fun abc => (fst (fst abc), (snd (fst abc), snd abc))) (combine (combine l m) n).
Proof. revert m n. induction l as [|a l IH]; intros [|b m] [|c n]; try reflexivity. cbn. rewrite IH. reflexivity. Qed.
Theorem r2L2_sum hom els M co cs : (hom = true -> forall e e', In e els -> In e' els -> M e = M e') ->
  r2L2_with hom els M co cs = rsum (combine els (combine co cs)) (fun q => bilinear (M (fst q)) (fst (snd q)) (snd (snd q))).
Proof.
  intros H. unfold r2L2_with. rewrite (vec_of_map hom M els H), map2_map_l, lsum_map2'. apply rsum_ext. intros [e [a b]] _. cbn [fst snd]. apply quad_form_bilinear.
Qed.
(* the matrices of alike elements are the same *)
Lemma inner_alike hom els r0 r1 so ss same o : (hom = true -> alike els (fst r0) (fst r1)) -> (same = true -> so = ss) -> orths_ok els (fst r0) (fst r1) -> hom = true ->
  forall e e', In e els -> In e' els -> r2inner0 so ss r0 r1 e = r2inner0 so ss r0 r1 e' /\ r2inner1 same o so ss r0 r1 e = r2inner1 same o so ss r0 r1 e' /\
  r2inner2 so ss r0 r1 e = r2inner2 so ss r0 r1 e'.
Proof.
  intros H S1 D Hm e e' I I'. specialize (H Hm). assert (Q : forall q w, In (q, w) (wp2 r0 r1) -> at2 (el_J e) q = at2 (el_J e') q).
  { intros q w J. apply in_wp2 in J as [X Y]. exact (H e e' I I' _ _ X Y). }
  split; [|split].
  - unfold r2inner0. rewrite !r2basis0_rows, !(gram2 (fun q w => ct2_Jacobian (at2 _ q) * w)). apply kmat_ext. intros a b _ _. apply rsum_ext. intros [q w] J. cbn [fst snd]. rewrite (Q q w J). reflexivity.
  - rewrite !r2inner1_kmat by auto. apply kmat_ext. intros [a|a] [b|b] _ _; unfold kin2; cbn [bk]; apply rsum_ext; intros [q w] J; cbn [fst snd]; rewrite (Q q w J); reflexivity.
  - unfold r2inner2. rewrite !r2basis2_rows, !(gram2 (fun q w => / ct2_Jacobian (at2 _ q) * w)). apply kmat_ext. intros a b _ _. apply rsum_ext. intros [q w] J. cbn [fst snd]. rewrite (Q q w J). reflexivity.
Qed.
