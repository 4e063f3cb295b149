(* Matrices and energies of forms on 2D elements. *)
From Coq Require Import Reals List Lia Lra Arith ZArith Bool.
From Verif Require Import TfiModel CtModel RingSum SpaceSpec SpaceProofs DiscModel DiscSpec DiscProofs DiscProofs2 DiscProofs3 Disc2Model Disc2Spec Disc2Proofs.
From Verif Require Import ReconModel ReconSpec ReconProofs ReconProofs2 ReconProofs3 ReconProofs4 ReconProofs5.
From Verif Require Import TriModel TriSpec TriProofs TdiscModel TdiscSpec TreconModel TreconSpec TreconProofs TreconProofs3 TreconProofs4 Rec2Model Rec2Spec Rec2Proofs.
Import ListNotations.
Open Scope R_scope.

Definition n0 (s : Space2) : nat := ((pdeg (z0 s) + 1) * (pdeg (z1 s) + 1))%nat.
Definition n1 (o : orient) (s : Space2) : nat := (fst (r2num o s) + snd (r2num o s))%nat.
Definition n2 (s : Space2) : nat := (pdeg (z0 s) * pdeg (z1 s))%nat.

Definition two2 (o : orient) (s : Space2) : list (cell + cell) := map inl (CE s (ax o false)) ++ map inr (CE s (ax o true)).
Lemma two2_len o s : length (two2 o s) = n1 o s.
Proof. unfold two2, n1. rewrite app_length, !map_length, CE_first, CE_second. reflexivity. Qed.
Definition kin2 o so ss r0 r1 (J : ejac2) : cell + cell -> cell + cell -> R :=
  let E b b' := ent (wp2 r0 r1) (fun q w => w * tfac o b b' (at2 J q)) (cf so) (cf ss) in
  bk (E false false) (E false true) (E true false) (E true true).
Lemma tfac_diag o b J : diagonal2 J -> tfac o b (negb b) J = 0.
Proof.
  destruct J as [[a b'] [c d]]. intros [D1 D2]. cbn [fst snd] in D1, D2. subst b' c. unfold tfac. cbn [ct2_inverse ct2_inverse_metric_matrix ct2_Jacobian]. destruct o, b; cbn [negb]; ring.
Qed.
Lemma ent_null o b so ss r0 r1 e a t : on_grid2 (fst r0) (fst r1) (fun x y => diagonal2 (el_J e x y)) ->
  ent (wp2 r0 r1) (fun q w => w * tfac o b (negb b) (at2 (el_J e) q)) (cf so) (cf ss) a t = 0.
Proof.
  intros D. unfold ent. apply rsum_zero'. intros [q w] I. destruct (in_wp2 _ _ _ _ I) as [X Y]. cbn [fst snd]. rewrite tfac_diag; [ring|]. apply D; assumption.
Qed.
Lemma r2inner1_kmat same o so ss r0 r1 e : (same = true -> so = ss) -> orth_ok e (fst r0) (fst r1) ->
  r2inner1 same o so ss r0 r1 e = kmat (two2 o so) (two2 o ss) (kin2 o so ss r0 r1 (el_J e)).
Proof.
  intros S1 D. unfold r2inner1. rewrite !r2basis1_rows. cbv zeta. unfold tmesh. rewrite !(gram2 (fun q w => w * tfac o _ _ (at2 (el_J e) q))). unfold kin2, two2. rewrite <- bmat2_kmat.
  destruct (el_orth e) eqn:E.
  - specialize (D E). f_equal; unfold block0, kmat, rows; rewrite map_map; apply map_ext; intros a; rewrite map_map; apply map_ext; intros t; symmetry.
    + apply (ent_null o false). exact D.
    + apply (ent_null o true). exact D.
  - f_equal. destruct same; [|reflexivity]. rewrite <- (S1 eq_refl). unfold rows. rewrite map_length, transpose_kmat. apply kmat_ext. intros a b _ _. rewrite ent_sym.
    unfold ent. apply rsum_ext. intros [q w] _. cbn [fst snd]. rewrite (tfac_sym o true false). reflexivity.
Qed.
Lemma flat_const {A B} (f : A -> list B) l n : (forall a, length (f a) = n) -> length (flat_map f l) = (length l * n)%nat.
Proof. intros H. induction l as [|a l IH]; [reflexivity|]. cbn [flat_map]. rewrite app_length, IH, H. cbn. lia. Qed.
Lemma tweights_map2 r0 r1 : rule_ok r0 -> rule_ok r1 -> tweights r0 r1 = map2 (fun (q : R * R) (w : R) => w) (mesh2 (fst r0) (fst r1)) (tweights r0 r1).
Proof.
  unfold rule_ok. intros H0 H1. assert (L : length (mesh2 (fst r0) (fst r1)) = length (tweights r0 r1)).
  { unfold tweights, mesh2. rewrite (flat_const _ _ (length (fst r0))) by (intros; apply map_length). rewrite (flat_const _ _ (length (fst r0))) by (intros; rewrite map_length; symmetry; exact H0).
    rewrite H1. reflexivity. }
  revert L. generalize (tweights r0 r1). induction (mesh2 (fst r0) (fst r1)) as [|q l IH]; intros [|w W] L; try discriminate; [reflexivity|]. cbn. f_equal. apply IH. injection L. auto.
Qed.
Section Forms.
Variables (r0 r1 : rule) (e : El2).
Hypotheses (H0 : rule_ok r0) (H1 : rule_ok r1).
Theorem r2inner0_ok so ss co cs : bilinear (r2inner0 so ss r0 r1 e) co cs = tquad r0 r1 (fun x y => det2 (el_J e x y) * (r2hat0 so co x y * r2hat0 ss cs x y)).
Proof.
  unfold r2inner0. rewrite !r2basis0_rows. rewrite (gram2 (fun q w => ct2_Jacobian (at2 (el_J e) q) * w)), bilinear_kmat, core2, tquad_points by assumption.
  apply rsum_ext. intros [q w] _. cbn [fst snd]. rewrite !hat0_csum, det2_ct. unfold at2, csum2. ring.
Qed.
Theorem r2wedge20_ok so ss co cs : bilinear (r2wedge20 so ss r0 r1) co cs = tquad r0 r1 (fun x y => r2hat2 so co x y * r2hat0 ss cs x y).
Proof.
  unfold r2wedge20. rewrite r2basis0_rows, r2basis2_rows.
  rewrite (tweights_map2 r0 r1 H0 H1).
  rewrite (gram2 (fun q w => w)), bilinear_kmat, core2, tquad_points by assumption.
  apply rsum_ext. intros [q w] _. cbn [fst snd]. rewrite hat0_csum, hat2_csum. unfold csum2. ring.
Qed.
Hypothesis N : regular e (fst r0) (fst r1).
Theorem r2inner2_ok so ss co cs vo vs :
  on_grid2 (fst r0) (fst r1) (fun x y => field2 so co (el_J e) x y (vo x y)) -> on_grid2 (fst r0) (fst r1) (fun x y => field2 ss cs (el_J e) x y (vs x y)) ->
  bilinear (r2inner2 so ss r0 r1 e) co cs = tquad r0 r1 (fun x y => det2 (el_J e x y) * (vo x y * vs x y)).
Proof.
  intros Vo Vs. unfold r2inner2. rewrite !r2basis2_rows. rewrite (gram2 (fun q w => / ct2_Jacobian (at2 (el_J e) q) * w)), bilinear_kmat, core2, tquad_points by assumption.
  apply rsum_ext. intros [q w] I. cbn [fst snd]. destruct (in_wp2 _ _ _ _ I) as [X Y].
  pose proof (Vo _ _ X Y) as A. pose proof (Vs _ _ X Y) as B. unfold field2, tpulls2 in A, B. rewrite hat2_csum in A, B. unfold csum2 in A, B. rewrite <- A, <- B.
  unfold at2. rewrite <- det2_ct. pose proof (N _ _ X Y) as Nq. cbv beta in Nq. field. exact Nq.
Qed.
Hypothesis D : orth_ok e (fst r0) (fst r1).
Theorem r2inner1_ok same o so ss co cs vo vs : (same = true -> so = ss) ->
  on_grid2 (fst r0) (fst r1) (fun x y => field1 o so co (el_J e) x y (vo x y)) -> on_grid2 (fst r0) (fst r1) (fun x y => field1 o ss cs (el_J e) x y (vs x y)) ->
  bilinear (r2inner1 same o so ss r0 r1 e) co cs = tquad r0 r1 (fun x y => det2 (el_J e x y) * dot2 (vo x y) (vs x y)).
Proof.
  intros S1 Vo Vs. rewrite (r2inner1_kmat _ _ _ _ _ _ _ S1 D), bilinear_kmat. unfold two2. rewrite rsum_two.
  rewrite !rsum_two_in. unfold kin2. cbn [bk fst snd]. rewrite !core2, <- !rsum_plus, tquad_points by assumption. rewrite !CE_first.
  apply rsum_ext. intros [q w] I. cbn [fst snd]. destruct (in_wp2 _ _ _ _ I) as [X Y].
  fold (csum2 so (CE so (ax o false)) (firstn (fst (r2num o so)) co) q) (csum2 so (CE so (ax o true)) (skipn (fst (r2num o so)) co) q).
  fold (csum2 ss (CE ss (ax o false)) (firstn (fst (r2num o ss)) cs) q) (csum2 ss (CE ss (ax o true)) (skipn (fst (r2num o ss)) cs) q).
  rewrite <- !hat1_first, <- !hat1_second.
  rewrite <- (tfac_dot o (el_J e (fst q) (snd q)) (vo (fst q) (snd q)) (vs (fst q) (snd q)) _ _ (N _ _ X Y) (Vo _ _ X Y) (Vs _ _ X Y)). unfold at2. ring.
Qed.
End Forms.

(* ---------- wedge of 1-forms ---------- *)
Lemma repeat_map {A} (x : R) (l : list A) : map (fun _ => x) l = repeat x (length l).
Proof. induction l; [reflexivity|]. cbn. f_equal. exact IHl. Qed.
Lemma repeat_map' {A} (x : list R) (l : list A) : map (fun _ => x) l = repeat x (length l).
Proof. induction l; [reflexivity|]. cbn. f_equal. exact IHl. Qed.
Lemma zero_block_kmat {A B} (L : list A) (M : list B) : zero_block (length L) (length M) = kmat L M (fun _ _ => 0).
Proof. unfold zero_block, kmat. rewrite repeat_map, repeat_map'. reflexivity. Qed.
Lemma r2wedge11_sum oo os so ss r0 r1 co cs : rule_ok r0 -> rule_ok r1 -> bilinear (r2wedge11 oo os so ss r0 r1) co cs =
  tquad r0 r1 (fun x y => r2hat1 oo so co (ax oo false) x y * r2hat1 os ss cs (ax os false) x y + r2hat1 oo so co (ax oo true) x y * r2hat1 os ss cs (ax os true) x y).
Proof.
  intros H0 H1. unfold r2wedge11. rewrite !r2basis1_rows. rewrite (tweights_map2 r0 r1 H0 H1). rewrite !(gram2 (fun q w => w)). rewrite <- CE_first, <- CE_first, <- CE_second, <- CE_second.
  rewrite !zero_block_kmat, bmat2_kmat, bilinear_kmat, rsum_two, !rsum_two_in. cbn [bk fst snd].
  rewrite !CE_first. rewrite !core2, tquad_points by assumption.
  rewrite (rsum_zero' (combine (CE so (ax oo false)) (firstn (fst (r2num oo so)) co)) (fun a => rsum _ (fun ac => snd a * snd ac * 0))) by (intros; apply rsum_zero'; intros; ring).
  rewrite (rsum_zero' (combine (CE so (ax oo true)) (skipn (fst (r2num oo so)) co)) (fun a => rsum _ (fun ac => snd a * snd ac * 0))) by (intros; apply rsum_zero'; intros; ring).
  rewrite Rplus_0_r, Rplus_0_l, <- rsum_plus. apply rsum_ext. intros [q w] I. cbn [fst snd]. rewrite !hat1_first, !hat1_second. unfold csum2. ring.
Qed.
Theorem r2wedge11_ok o so ss r0 r1 J co cs vo vs : rule_ok r0 -> rule_ok r1 ->
  on_grid2 (fst r0) (fst r1) (fun x y => field1 o so co J x y (vo x y)) -> on_grid2 (fst r0) (fst r1) (fun x y => field1 (flip_or o) ss cs J x y (vs x y)) ->
  bilinear (r2wedge11 o (flip_or o) so ss r0 r1) co cs = tquad r0 r1 (fun x y => det2 (J x y) * dot2 (vo x y) (vs x y)).
Proof.
  intros H0 H1 Vo Vs. rewrite r2wedge11_sum by assumption. apply tquad_ext. intros x y X Y. pose proof (Vo x y X Y) as A. pose proof (Vs x y X Y) as B. unfold field1, tpulls1 in A, B.
  rewrite <- !A, <- !B. generalize (vo x y) (vs x y). intros [a1 a2] [b1 b2]. destruct (J x y) as [[a b] [c d]]. destruct o; cbn [flip_or ax negb]; unfold det2, dot2, cross2, mcol, comp; cbn [fst snd]; ring.
Qed.

(* ---------- symmetric, positive definite ---------- *)
Theorem r2inner0_sym s r0 r1 e : symmetric (r2inner0 s s r0 r1 e) (n0 s).
Proof.
  unfold r2inner0. rewrite !r2basis0_rows. rewrite (gram2 (fun q w => ct2_Jacobian (at2 (el_J e) q) * w)). replace (n0 s) with (length (CT s false false)); [apply kmat_sym; intros; apply ent_sym|].
  rewrite CT_len. unfold n0. cbn [size]. lia.
Qed.
Theorem r2inner2_sym s r0 r1 e : symmetric (r2inner2 s s r0 r1 e) (n2 s).
Proof.
  unfold r2inner2. rewrite !r2basis2_rows. rewrite (gram2 (fun q w => / ct2_Jacobian (at2 (el_J e) q) * w)). replace (n2 s) with (length (CT s true true)); [apply kmat_sym; intros; apply ent_sym|].
  rewrite CT_len. reflexivity.
Qed.
Theorem r2inner1_sym same o s r0 r1 e : orth_ok e (fst r0) (fst r1) -> symmetric (r2inner1 same o s s r0 r1 e) (n1 o s).
Proof.
  intros D. rewrite r2inner1_kmat by (reflexivity || exact D). rewrite <- (two2_len o). apply kmat_sym. intros [a|a] [b|b]; unfold kin2; cbn [bk]; rewrite ent_sym; try reflexivity;
  unfold ent; apply rsum_ext; intros [q w] _; cbn [fst snd]; rewrite (tfac_sym o true false); reflexivity.
Qed.
Lemma combine_first_map {A B} (W : A -> B) l : combine l (map W l) = map (fun a => (a, W a)) l.
Proof. induction l as [|a l IH]; [reflexivity|]. cbn. rewrite IH. reflexivity. Qed.
Section Null.
Variables (r0 r1 : rule) (s : Space2).
Hypotheses (S0 : separates (fst r0) (z0 s)) (S1 : separates (fst r1) (z1 s)).
Lemma CT_sum a b (W : cell -> R) q : csum2 s (CT s a b) (map W (CT s a b)) q =
  rsum (seq 0 (size (pdeg (z1 s)) b)) (fun j => rsum (seq 0 (size (pdeg (z0 s)) a)) (fun i => W [(a, i); (b, j)] * (factor_fn (z0 s) (a, i) (fst q) * factor_fn (z1 s) (b, j) (snd q)))).
Proof.
  unfold csum2. rewrite combine_first_map, ReconProofs.rsum_map, CT_prods, ReconProofs.rsum_map. unfold prods. rewrite rsum_flat_map. apply rsum_ext. intros j _.
  rewrite ReconProofs.rsum_map. apply rsum_ext. intros i _. reflexivity.
Qed.
Lemma CT_null a b c : length c = length (CT s a b) -> on_grid2 (fst r0) (fst r1) (fun x y => csum2 s (CT s a b) c (x, y) = 0) -> c = repeat 0 (length (CT s a b)).
Proof.
  intros L H. assert (ND : NoDup (CT s a b)).
  { unfold CT. pose proof (NoDup_cells (deg2 s) [[a; b]]) as K. unfold cells in K. cbn [flat_map] in K. rewrite app_nil_r in K. apply K.
    split; [repeat constructor; intros []|]. intros t [<-|[]]. reflexivity. }
  assert (E := as_map (CT s a b) c ND L). revert E. generalize (fun e => nth (SpaceProofs.pos (CT s a b) e) c 0). intros W Ec. rewrite Ec in H. rewrite Ec at 1. clear Ec.
  apply zero_map. intros e I. rewrite CT_prods in I. apply in_map_iff in I as ([i j] & <- & I). apply in_prods in I as [Hi Hj]. apply in_seq in Hi, Hj. cbn [fst snd].
  apply (sep_factor _ _ a S0 (fun i => W [(a, i); (b, j)])); [|lia]. intros x X.
  apply (sep_factor _ _ b S1 (fun j => rsum (seq 0 (size (pdeg (z0 s)) a)) (fun i => W [(a, i); (b, j)] * factor_fn (z0 s) (a, i) x))); [|lia]. intros y Y.
  rewrite <- (H x y X Y). rewrite CT_sum. apply rsum_ext. intros j' _. rewrite rsum_scal. apply rsum_ext. intros i' _. cbn [fst snd]. ring.
Qed.
Lemma r2null0 c : length c = n0 s -> on_grid2 (fst r0) (fst r1) (fun x y => r2hat0 s c x y = 0) -> c = repeat 0 (n0 s).
Proof.
  intros L H. assert (E : length (CT s false false) = n0 s) by (rewrite CT_len; unfold n0; cbn [size]; lia). rewrite <- E. apply CT_null; [lia|]. intros x y X Y.
  rewrite <- (hat0_csum s c (x, y)). apply H; assumption.
Qed.
Lemma r2null2 c : length c = n2 s -> on_grid2 (fst r0) (fst r1) (fun x y => r2hat2 s c x y = 0) -> c = repeat 0 (n2 s).
Proof.
  intros L H. assert (E : length (CT s true true) = n2 s) by (rewrite CT_len; reflexivity). rewrite <- E. apply CT_null; [lia|]. intros x y X Y.
  rewrite <- (hat2_csum s c (x, y)). apply H; assumption.
Qed.
Lemma r2null1 o c : length c = n1 o s -> (forall d : bool, on_grid2 (fst r0) (fst r1) (fun x y => r2hat1 o s c d x y = 0)) -> c = repeat 0 (n1 o s).
Proof.
  intros L H. unfold n1 in *.
  assert (A : firstn (fst (r2num o s)) c = repeat 0 (fst (r2num o s))).
  { rewrite <- CE_first. apply CT_null; [fold (CE s (ax o false)); rewrite firstn_length, CE_first; lia|]. intros x y X Y. fold (CE s (ax o false)). rewrite CE_first.
    rewrite <- (hat1_first o s c (x, y)). apply H; assumption. }
  assert (B : skipn (fst (r2num o s)) c = repeat 0 (snd (r2num o s))).
  { rewrite <- CE_second. apply CT_null; [fold (CE s (ax o true)); rewrite skipn_length, CE_second; lia|]. intros x y X Y. fold (CE s (ax o true)).
    rewrite <- (hat1_second o s c (x, y)). apply H; assumption. }
  rewrite <- (firstn_skipn (fst (r2num o s)) c), A, B, <- repeat_app. reflexivity.
Qed.
Hypotheses (H0 : rule_ok r0) (H1 : rule_ok r1) (W0 : weights_pos r0) (W1 : weights_pos r1).
Variable e : El2.
Hypothesis Dp : on_grid2 (fst r0) (fst r1) (fun x y => 0 < det2 (el_J e x y)).
Let N : regular e (fst r0) (fst r1).
Proof. intros x y X Y. assert (D := Dp x y X Y). cbv beta in D. lra. Qed.
Theorem r2inner0_pos : positive_definite (r2inner0 s s r0 r1 e) (n0 s).
Proof.
  intros c L. rewrite (r2inner0_ok r0 r1 e H0 H1).
  assert (Q : on_grid2 (fst r0) (fst r1) (fun x y => 0 <= det2 (el_J e x y) * (r2hat0 s c x y * r2hat0 s c x y))).
  { intros x y X Y. assert (D := Dp x y X Y). cbv beta in D. apply Rmult_le_pos; [lra|]. apply Rle_0_sqr. }
  split; [apply tquad_nonneg; assumption|]. intros Z0. apply r2null0; [exact L|]. intros x y X Y.
  assert (Z := tquad_null r0 r1 H0 H1 W0 W1 _ Q Z0 x y X Y). cbv beta in Z. assert (D := Dp x y X Y). cbv beta in D.
  apply Rmult_integral in Z as [Z|Z]; [lra|]. apply Rmult_integral in Z as [Z|Z]; exact Z.
Qed.
Theorem r2inner2_pos : positive_definite (r2inner2 s s r0 r1 e) (n2 s).
Proof.
  intros c L. set (v := fun x y => r2hat2 s c x y / det2 (el_J e x y)).
  assert (Pv : on_grid2 (fst r0) (fst r1) (fun x y => field2 s c (el_J e) x y (v x y))).
  { intros x y X Y. unfold field2, tpulls2, v. assert (D := N x y X Y). cbv beta in D. field. exact D. }
  rewrite (r2inner2_ok r0 r1 e H0 H1 N s s c c v v Pv Pv).
  assert (Q : on_grid2 (fst r0) (fst r1) (fun x y => 0 <= det2 (el_J e x y) * (v x y * v x y))).
  { intros x y X Y. assert (D := Dp x y X Y). cbv beta in D. apply Rmult_le_pos; [lra|]. apply Rle_0_sqr. }
  split; [apply tquad_nonneg; assumption|]. intros Z0. apply r2null2; [exact L|]. intros x y X Y.
  assert (Z := tquad_null r0 r1 H0 H1 W0 W1 _ Q Z0 x y X Y). cbv beta in Z. assert (D := Dp x y X Y). cbv beta in D.
  assert (v x y = 0) as V by (apply Rmult_integral in Z as [Z|Z]; [lra|]; apply Rmult_integral in Z as [Z|Z]; exact Z).
  assert (P3 := Pv x y X Y). unfold field2, tpulls2 in P3. rewrite V in P3. lra.
Qed.
Theorem r2inner1_pos same o : orth_ok e (fst r0) (fst r1) -> positive_definite (r2inner1 same o s s r0 r1 e) (n1 o s).
Proof.
  intros Do c L. set (v := fun x y => r2val1 o s e c (x, y)).
  assert (Pv : on_grid2 (fst r0) (fst r1) (fun x y => field1 o s c (el_J e) x y (v x y))).
  { intros x y X Y. apply (r2val1_pulls o s e c (fst r0) (fst r1)); assumption. }
  rewrite (r2inner1_ok r0 r1 e H0 H1 N Do same o s s c c v v (fun _ => eq_refl) Pv Pv).
  assert (Q : on_grid2 (fst r0) (fst r1) (fun x y => 0 <= det2 (el_J e x y) * dot2 (v x y) (v x y))).
  { intros x y X Y. assert (D := Dp x y X Y). cbv beta in D. apply Rmult_le_pos; [lra|]. apply dot2_nonneg. }
  split; [apply tquad_nonneg; assumption|]. intros Z0. apply (r2null1 o); [exact L|]. intros d x y X Y.
  assert (Z := tquad_null r0 r1 H0 H1 W0 W1 _ Q Z0 x y X Y). cbv beta in Z. assert (D := Dp x y X Y). cbv beta in D.
  apply Rmult_integral in Z as [Z|Z]; [lra|]. rewrite <- (Pv x y X Y d). rewrite (dot2_null _ Z). unfold dot2, cross2. destruct o; cbn [fst snd]; ring.
Qed.
End Null.
