(* Mass matrices on a triangle are symmetric and positive definite; energies. *)
From Coq Require Import Reals List Lia Lra Arith ZArith Bool.
From Verif Require Import TfiModel CtModel RingSum SpaceSpec DiscModel DiscSpec DiscProofs DiscProofs2 DiscProofs3 Disc2Model Disc2Spec Disc2Proofs.
From Verif Require Import ReconModel ReconSpec ReconProofs ReconProofs2 ReconProofs3 ReconProofs4 ReconProofs5.
From Verif Require Import TriModel TriSpec TriProofs TriProofs6 TdiscModel TdiscSpec TreconModel TreconSpec TreconProofs TreconProofs3.
Import ListNotations.
Open Scope R_scope.

Theorem tinner0_sym P r0 r1 J : symmetric (tinner0 P P r0 r1 J) (tnb0 (pdeg P)).
Proof.
  unfold tinner0. rewrite !tbasis0_rows. rewrite (gram2 (fun q w => ct2_Jacobian (at2 J q) * w)). rewrite <- TN_len. apply kmat_sym. intros. apply ent_sym.
Qed.
Theorem tinner2_sym P r0 r1 J : symmetric (tinner2 P P r0 r1 J) (tnb2 (pdeg P)).
Proof.
  unfold tinner2. rewrite !tbasis2_rows. rewrite (gram2 (fun q w => / ct2_Jacobian (at2 J q) * w)). rewrite <- TF_len. apply kmat_sym. intros. apply ent_sym.
Qed.
Theorem tinner1_sym same o P M e r0 r1 J : symmetric (tinner1 same o P P M e r0 r1 J) (tnb1 (pdeg P)).
Proof.
  rewrite tinner1_kmat by reflexivity. rewrite <- (two_len o). apply kmat_sym. intros [a|a] [b|b]; unfold kin; cbn [bk]; rewrite ent_sym; try reflexivity;
  unfold ent; apply rsum_ext; intros [q w] _; cbn [fst snd]; rewrite (tfac_sym o true false); reflexivity.
Qed.

Section Quad.
Variables (r0 r1 : rule).
Hypotheses (H0 : rule_ok r0) (H1 : rule_ok r1) (W0 : weights_pos r0) (W1 : weights_pos r1).
Let w_pos a b : In a (combine (fst r0) (snd r0)) -> In b (combine (fst r1) (snd r1)) -> 0 < snd a * snd b.
Proof.
  destruct a as [a a'], b as [b b']. intros A B. apply in_combine_r in A, B. cbn [snd]. apply Rmult_lt_0_compat; [apply W0|apply W1]; assumption.
Qed.
Lemma tquad_term h : on_grid2 (fst r0) (fst r1) (fun x y => 0 <= h x y) -> forall a b, In a (combine (fst r0) (snd r0)) -> In b (combine (fst r1) (snd r1)) ->
  0 <= h (fst a) (fst b) * (snd a * snd b).
Proof.
  intros H a b A B. apply Rmult_le_pos; [|left; apply w_pos; assumption]. destruct a, b. apply in_combine_l in A, B. apply H; assumption.
Qed.
Lemma tquad_nonneg h : on_grid2 (fst r0) (fst r1) (fun x y => 0 <= h x y) -> 0 <= tquad r0 r1 h.
Proof. intros H. apply rsum_nonneg. intros a A. apply rsum_nonneg. intros b B. apply tquad_term; assumption. Qed.
Lemma tquad_null h : on_grid2 (fst r0) (fst r1) (fun x y => 0 <= h x y) -> tquad r0 r1 h = 0 -> on_grid2 (fst r0) (fst r1) (fun x y => h x y = 0).
Proof.
  intros H Z x y X Y. destruct (in_rule _ _ H0 X) as [wx Wx]. destruct (in_rule _ _ H1 Y) as [wy Wy]. unfold tquad in Z.
  assert (Z1 := rsum_null _ _ (fun a A => rsum_nonneg _ _ (fun b B => tquad_term h H a b A B)) Z _ Wx). cbv beta in Z1.
  assert (Z2 := rsum_null _ _ (fun b B => tquad_term h H (x, wx) b Wx B) Z1 _ Wy). cbn [fst snd] in Z2.
  assert (W := w_pos _ _ Wx Wy). cbn [snd] in W. apply Rmult_integral in Z2 as [Z2|Z2]; [exact Z2|lra].
Qed.
Variable P : Poly1.
Hypotheses (S0 : separates (fst r0) P) (S1 : separates (fst r1) P).
Lemma tsum2_null a b W : on_grid2 (fst r0) (fst r1) (fun x y => tsum2 P a b W x y = 0) ->
  forall i j, (i < size (pdeg P) a)%nat -> (j < size (pdeg P) b)%nat -> W i j = 0.
Proof.
  intros H i j Hi Hj. apply (sep_factor _ _ a S0 (fun i => W i j)); [|exact Hi]. intros x X.
  apply (sep_factor _ _ b S1 (fun j => rsum (seq 0 (size (pdeg P) a)) (fun i => W i j * factor_fn P (a, i) x))); [|exact Hj]. intros y Y.
  rewrite <- (H x y X Y). unfold tsum2. apply rsum_ext. intros j' _. rewrite rsum_scal. apply rsum_ext. intros i' _. ring.
Qed.
Lemma zero_num {A} (num : A -> nat) (L : list A) n c : map num L = seq 0 n -> length c = n -> (forall k, In k L -> nth (num k) c 0 = 0) -> c = repeat 0 n.
Proof.
  intros E Lc H. rewrite <- Lc. rewrite <- Lc in E. clear Lc. apply (nth_ext _ _ 0 0); [rewrite repeat_length; reflexivity|]. intros i Hi. rewrite nth_repeat.
  assert (In i (map num L)) as I by (rewrite E; apply in_seq; lia). apply in_map_iff in I as (k & <- & I). apply H. exact I.
Qed.
Lemma in_prods j i lj li : In (i, j) (prods lj li) <-> In i li /\ In j lj.
Proof.
  unfold prods. rewrite in_flat_map. split.
  - intros (y & Hy & I). apply in_map_iff in I as (x & E & Hx). injection E as -> ->. split; assumption.
  - intros [A B]. exists j. split; [exact B|]. apply in_map_iff. exists i. split; [reflexivity|exact A].
Qed.
Lemma tnull0 c : length c = tnb0 (pdeg P) -> on_grid2 (fst r0) (fst r1) (fun x y => that0 P c x y = 0) -> c = repeat 0 (tnb0 (pdeg P)).
Proof.
  intros L H. pose proof (tsum2_null false false _ H) as Z. cbn [size] in Z. apply (zero_num (nn (pdeg P)) (TN (pdeg P)) _ c (TN_num _) L). intros k I.
  destruct I as [<-|I]; [exact (Z 0%nat 0%nat ltac:(lia) ltac:(lia))|]. apply in_map_iff in I as ([i j] & <- & I). apply in_prods in I as [Hi Hj]. apply in_seq in Hi, Hj. cbn [fst snd].
  specialize (Z i j ltac:(lia) ltac:(lia)). destruct j as [|j]; [lia|exact Z].
Qed.
Lemma tnull2 c : length c = tnb2 (pdeg P) -> on_grid2 (fst r0) (fst r1) (fun x y => that2 P c x y = 0) -> c = repeat 0 (tnb2 (pdeg P)).
Proof.
  intros L H. pose proof (tsum2_null true true _ H) as Z. cbn [size] in Z. apply (zero_num (nf (pdeg P)) (TF (pdeg P)) _ c (TF_num _) L). intros [i j] I.
  apply in_prods in I as [Hi Hj]. apply in_seq in Hi, Hj. exact (Z i j ltac:(lia) ltac:(lia)).
Qed.
Lemma sign_null o M e k x : IZR (transition o (pdeg P) M e k) * x = 0 -> x = 0.
Proof.
  intros H. apply Rmult_integral in H as [H|H]; [|exact H]. exfalso. apply eq_IZR_R0 in H. pose proof (transition_sq o (pdeg P) M e k) as Q. rewrite H in Q. discriminate Q.
Qed.
Lemma tnull1 o M e c : length c = tnb1 (pdeg P) -> (forall d : bool, on_grid2 (fst r0) (fst r1) (fun x y => that1 o P M e c d x y = 0)) -> c = repeat 0 (tnb1 (pdeg P)).
Proof.
  intros L H. pose proof (tsum2_null false true _ (H true)) as Zy. pose proof (tsum2_null true false _ (H false)) as Zx. cbn [size] in Zx, Zy.
  apply (zero_num (ne o (pdeg P)) (TE o (pdeg P)) _ c (TE_num o _) L). intros k I.
  assert (In k (TX (pdeg P)) \/ In k (TY (pdeg P))) as [D|D].
  { unfold TE in I. apply in_app_iff in I. destruct o; cbn [ax negb T1] in I; tauto. }
  - apply in_map_iff in D as ([i j] & <- & D). apply in_prods in D as [Hi Hj]. apply in_seq in Hi, Hj. cbn [fst snd].
    specialize (Zx i j ltac:(lia) ltac:(lia)). destruct j as [|j]; [lia|]. exact (sign_null _ _ _ _ _ Zx).
  - apply in_map_iff in D as ([i j] & <- & D). apply in_prods in D as [Hi Hj]. apply in_seq in Hi, Hj. cbn [fst snd].
    exact (sign_null _ _ _ _ _ (Zy i j ltac:(lia) ltac:(lia))).
Qed.
Variable J : ejac2.
Hypothesis Dp : on_grid2 (fst r0) (fst r1) (fun x y => 0 < det2 (J x y)).
Let N : on_grid2 (fst r0) (fst r1) (fun x y => det2 (J x y) <> 0).
Proof. intros x y X Y. assert (D := Dp x y X Y). cbv beta in D. lra. Qed.
Lemma dot2_nonneg v : 0 <= dot2 v v.
Proof. unfold dot2. destruct v as [a b]. cbn [fst snd]. nra. Qed.
Lemma dot2_null v : dot2 v v = 0 -> v = (0, 0).
Proof. unfold dot2. destruct v as [a b]. cbn [fst snd]. intros H. f_equal; nra. Qed.
Theorem tinner0_pos : positive_definite (tinner0 P P r0 r1 J) (tnb0 (pdeg P)).
Proof.
  intros c L. rewrite (tinner0_ok r0 r1 J H0 H1).
  assert (Q : on_grid2 (fst r0) (fst r1) (fun x y => 0 <= det2 (J x y) * (that0 P c x y * that0 P c x y))).
  { intros x y X Y. assert (D := Dp x y X Y). cbv beta in D. apply Rmult_le_pos; [lra|]. apply Rle_0_sqr. }
  split; [apply tquad_nonneg; exact Q|]. intros Z0. apply tnull0; [exact L|]. intros x y X Y.
  assert (Z := tquad_null _ Q Z0 x y X Y). cbv beta in Z. assert (D := Dp x y X Y). cbv beta in D.
  apply Rmult_integral in Z as [Z|Z]; [lra|]. apply Rmult_integral in Z as [Z|Z]; exact Z.
Qed.
Theorem tinner2_pos : positive_definite (tinner2 P P r0 r1 J) (tnb2 (pdeg P)).
Proof.
  intros c L. set (v := fun x y => that2 P c x y / det2 (J x y)).
  assert (Pv : on_grid2 (fst r0) (fst r1) (fun x y => tpulls2 (J x y) (v x y) (that2 P c x y))).
  { intros x y X Y. unfold tpulls2, v. assert (D := N x y X Y). cbv beta in D. field. exact D. }
  rewrite (tinner2_ok r0 r1 J H0 H1 N P P c c v v Pv Pv).
  assert (Q : on_grid2 (fst r0) (fst r1) (fun x y => 0 <= det2 (J x y) * (v x y * v x y))).
  { intros x y X Y. assert (D := Dp x y X Y). cbv beta in D. apply Rmult_le_pos; [lra|]. apply Rle_0_sqr. }
  split; [apply tquad_nonneg; exact Q|]. intros Z0. apply tnull2; [exact L|]. intros x y X Y.
  assert (Z := tquad_null _ Q Z0 x y X Y). cbv beta in Z. assert (D := Dp x y X Y). cbv beta in D.
  assert (v x y = 0) as V by (apply Rmult_integral in Z as [Z|Z]; [lra|]; apply Rmult_integral in Z as [Z|Z]; exact Z).
  assert (P3 := Pv x y X Y). unfold tpulls2 in P3. rewrite V in P3. lra.
Qed.
Theorem tinner1_pos same o M e : positive_definite (tinner1 same o P P M e r0 r1 J) (tnb1 (pdeg P)).
Proof.
  intros c L. set (v := fun x y => val1 o P M e J c (x, y)).
  assert (Pv : on_grid2 (fst r0) (fst r1) (fun x y => tpulls1 o (J x y) (v x y) (fun d => that1 o P M e c d x y))).
  { intros x y X Y. unfold v, val1, tiJ, at2. cbn [fst snd]. apply (value_pulls o (J x y) (fun d => that1 o P M e c d x y)). apply N; assumption. }
  rewrite (tinner1_ok r0 r1 J H0 H1 N same o P P M e c c v v (fun _ => eq_refl) Pv Pv).
  assert (Q : on_grid2 (fst r0) (fst r1) (fun x y => 0 <= det2 (J x y) * dot2 (v x y) (v x y))).
  { intros x y X Y. assert (D := Dp x y X Y). cbv beta in D. apply Rmult_le_pos; [lra|]. apply dot2_nonneg. }
  split; [apply tquad_nonneg; exact Q|]. intros Z0. apply (tnull1 o M e); [exact L|]. intros d x y X Y.
  assert (Z := tquad_null _ Q Z0 x y X Y). cbv beta in Z. assert (D := Dp x y X Y). cbv beta in D.
  apply Rmult_integral in Z as [Z|Z]; [lra|]. rewrite <- (Pv x y X Y d). rewrite (dot2_null _ Z). unfold dot2, cross2. destruct o; cbn [fst snd]; ring.
Qed.
End Quad.

(* ---------- energies ---------- *)
Lemma lsum_map2' {A B} (f : A -> B -> R) l m : lsum (map2 f l m) = rsum (combine l m) (fun ab => f (fst ab) (snd ab)).
Proof. revert m. induction l as [|a l IH]; intros [|b m]; try reflexivity. cbn [map2 combine]. rewrite rsum_cons, <- IH. reflexivity. Qed.
Lemma combine_first {A B C} (h : A -> C) (P : list A) (W : list B) : combine (combine P W) (map h P) = map (fun qw => (qw, h (fst qw))) (combine P W).
Proof. revert W. induction P as [|a P IH]; intros [|b W]; try reflexivity. cbn. rewrite IH. reflexivity. Qed.
Section Energy.
Variables (r0 r1 : rule) (J : ejac2).
Hypotheses (H0 : rule_ok r0) (H1 : rule_ok r1).
Lemma energy_s n h : tenergy_scalar n r0 r1 J (map h (tmesh r0 r1)) = tquad r0 r1 (fun x y => det2 (J x y) * h (x, y) ^ n).
Proof.
  unfold tenergy_scalar. rewrite lsum_map2', combine_first, ReconProofs.rsum_map, tquad_points by assumption. apply rsum_ext. intros [[x y] w] _. cbn [fst snd at2].
  rewrite det2_ct. unfold at2. cbn [fst snd]. ring.
Qed.
Lemma energy_v n h : tenergy_vector n r0 r1 J (map h (tmesh r0 r1)) = tquad r0 r1 (fun x y => det2 (J x y) * (fst (h (x, y)) ^ n + snd (h (x, y)) ^ n)).
Proof.
  unfold tenergy_vector. rewrite lsum_map2', combine_first, ReconProofs.rsum_map, tquad_points by assumption. apply rsum_ext. intros [[x y] w] _. cbn [fst snd at2].
  rewrite det2_ct. unfold at2. cbn [fst snd]. ring.
Qed.
Lemma tquad_ext h h' : on_grid2 (fst r0) (fst r1) (fun x y => h x y = h' x y) -> tquad r0 r1 h = tquad r0 r1 h'.
Proof.
  intros H. apply rsum_ext. intros [x a] A. apply rsum_ext. intros [y b] B. cbn [fst snd]. apply in_combine_l in A, B. rewrite (H x y A B). reflexivity.
Qed.
Theorem tenergy0 n P c : tenergy_scalar n r0 r1 J (trecon0 P (fst r0) (fst r1) c) = tquad r0 r1 (fun x y => det2 (J x y) * that0 P c x y ^ n).
Proof. rewrite trecon0_map. apply (energy_s n (fun q => that0 P c (fst q) (snd q))). Qed.
Theorem tenergy0_mass P c : tenergy_scalar 2 r0 r1 J (trecon0 P (fst r0) (fst r1) c) = bilinear (tinner0 P P r0 r1 J) c c.
Proof. rewrite tenergy0, tinner0_ok by assumption. apply tquad_ext. intros x y _ _. ring. Qed.
Hypothesis N : on_grid2 (fst r0) (fst r1) (fun x y => det2 (J x y) <> 0).
Theorem tenergy2 n P c v : on_grid2 (fst r0) (fst r1) (fun x y => tpulls2 (J x y) (v x y) (that2 P c x y)) ->
  tenergy_scalar n r0 r1 J (trecon2 P (fst r0) (fst r1) J c) = tquad r0 r1 (fun x y => det2 (J x y) * v x y ^ n).
Proof.
  intros V. rewrite trecon2_map. etransitivity; [apply (energy_s n (fun q => that2 P c (fst q) (snd q) * ct2_inverse_Jacobian (tiJ J q)))|]. apply tquad_ext. intros x y X Y. f_equal. f_equal.
  unfold tiJ, at2. cbn [fst snd]. rewrite inv_det by (apply N; assumption). rewrite <- (V x y X Y). field. apply N; assumption.
Qed.
Lemma pulls1_inj o (J' : mat22) w w' u : det2 J' <> 0 -> tpulls1 o J' w u -> tpulls1 o J' w' u -> w = w'.
Proof.
  intros Nj Q Q'. destruct J' as [[a b] [c d]], w as [x y], w' as [x' y']. pose proof (Q true) as E1. pose proof (Q false) as E2. rewrite <- (Q' true) in E1. rewrite <- (Q' false) in E2.
  unfold det2, dot2, cross2, mcol, comp in *. cbn [fst snd] in *.
  assert (X : (x - x') * (a * d - c * b) = 0 /\ (y - y') * (a * d - c * b) = 0).
  { destruct o; [pose proof (f_equal (Rmult a) E1) as K1; pose proof (f_equal (Rmult b) E2) as K2; pose proof (f_equal (Rmult c) E1) as K3; pose proof (f_equal (Rmult d) E2) as K4
                |pose proof (f_equal (Rmult a) E1) as K1; pose proof (f_equal (Rmult b) E2) as K2; pose proof (f_equal (Rmult c) E1) as K3; pose proof (f_equal (Rmult d) E2) as K4];
    split; lra. }
  destruct X as [X Y]. apply Rmult_integral in X as [X|X]; [|lra]. apply Rmult_integral in Y as [Y|Y]; [|lra]. f_equal; lra.
Qed.
Theorem tenergy1 n o P M e c v : on_grid2 (fst r0) (fst r1) (fun x y => tpulls1 o (J x y) (v x y) (fun d => that1 o P M e c d x y)) ->
  tenergy_vector n r0 r1 J (trecon1 o P M e (fst r0) (fst r1) J c) = tquad r0 r1 (fun x y => det2 (J x y) * (fst (v x y) ^ n + snd (v x y) ^ n)).
Proof.
  intros V. rewrite trecon1_map. etransitivity; [apply (energy_v n (val1 o P M e J c))|]. apply tquad_ext. intros x y X Y.
  assert (E : val1 o P M e J c (x, y) = v x y).
  { apply (pulls1_inj o (J x y) _ _ (fun d => that1 o P M e c d x y)); [apply N; assumption| |apply V; assumption].
    unfold val1, tiJ, at2. cbn [fst snd]. apply (value_pulls o (J x y) (fun d => that1 o P M e c d x y)). apply N; assumption. }
  rewrite E. reflexivity.
Qed.
Theorem tenergy1_mass same o P M e c : tenergy_vector 2 r0 r1 J (trecon1 o P M e (fst r0) (fst r1) J c) = bilinear (tinner1 same o P P M e r0 r1 J) c c.
Proof.
  set (v := fun x y => val1 o P M e J c (x, y)).
  assert (Pv : on_grid2 (fst r0) (fst r1) (fun x y => tpulls1 o (J x y) (v x y) (fun d => that1 o P M e c d x y))).
  { intros x y X Y. unfold v, val1, tiJ, at2. cbn [fst snd]. apply (value_pulls o (J x y) (fun d => that1 o P M e c d x y)). apply N; assumption. }
  rewrite (tenergy1 2 o P M e c v Pv), (tinner1_ok r0 r1 J H0 H1 N same o P P M e c c v v (fun _ => eq_refl) Pv Pv). apply tquad_ext. intros x y _ _. unfold dot2. ring.
Qed.
Theorem tenergy2_mass P c : tenergy_scalar 2 r0 r1 J (trecon2 P (fst r0) (fst r1) J c) = bilinear (tinner2 P P r0 r1 J) c c.
Proof.
  set (v := fun x y => that2 P c x y / det2 (J x y)).
  assert (Pv : on_grid2 (fst r0) (fst r1) (fun x y => tpulls2 (J x y) (v x y) (that2 P c x y))).
  { intros x y X Y. unfold tpulls2, v. assert (D := N x y X Y). cbv beta in D. field. exact D. }
  rewrite (tenergy2 2 P c v Pv), (tinner2_ok r0 r1 J H0 H1 N P P c c v v Pv Pv). apply tquad_ext. intros x y _ _. ring.
Qed.
End Energy.
