(* Mass matrices and energies on a triangle. *)
From Coq Require Import Reals List Lia Lra Arith ZArith Bool.
From Verif Require Import TfiModel CtModel RingSum SpaceSpec DiscModel DiscSpec DiscProofs DiscProofs2 DiscProofs3 Disc2Model Disc2Spec Disc2Proofs.
From Verif Require Import ReconModel ReconSpec ReconProofs ReconProofs2 ReconProofs3 ReconProofs4 ReconProofs5.
From Verif Require Import TriModel TriSpec TriProofs TdiscModel TdiscSpec TreconModel TreconSpec TreconProofs.
Import ListNotations.
Open Scope R_scope.

(* ---------- sums over the points ---------- *)
Definition wp2 (r0 r1 : rule) : list ((R * R) * R) := combine (tmesh r0 r1) (tweights r0 r1).
Lemma tquad_points r0 r1 h : rule_ok r0 -> rule_ok r1 -> tquad r0 r1 h = rsum (wp2 r0 r1) (fun qw => snd qw * h (fst (fst qw)) (snd (fst qw))).
Proof.
  unfold rule_ok. intros H0 H1. unfold wp2, tmesh, tweights, mesh2. rewrite combine_flat; [|exact H1|intros; rewrite !map_length; exact H0].
  rewrite rsum_flat_map. unfold tquad. rewrite (rsum_swap (combine (fst r0) (snd r0))). apply rsum_ext. intros [y b] _. cbn [fst snd].
  rewrite combine_maps2, ReconProofs.rsum_map. apply rsum_ext. intros [x a] _. cbn [fst snd]. ring.
Qed.
Lemma in_mesh2 xi et q : In q (mesh2 xi et) -> In (fst q) xi /\ In (snd q) et.
Proof. unfold mesh2. intros I. apply in_flat_map in I as (y & Hy & I). apply in_map_iff in I as (x & <- & Hx). split; assumption. Qed.
Lemma in_wp2 r0 r1 q w : In (q, w) (wp2 r0 r1) -> In (fst q) (fst r0) /\ In (snd q) (fst r1).
Proof. intros I. apply in_combine_l in I. exact (in_mesh2 _ _ _ I). Qed.
Definition ent {A B} (WP : list ((R * R) * R)) (g : R * R -> R -> R) (fo : A -> R * R -> R) (ft : B -> R * R -> R) (o : A) (t : B) : R :=
  rsum WP (fun qw => g (fst qw) (snd qw) * (fo o (fst qw) * ft t (fst qw))).
Lemma gram2 {A B} (g : R * R -> R -> R) (W : list R) (P : list (R * R)) (fo : A -> R * R -> R) (ft : B -> R * R -> R) L M :
  gram (map2 g P W) (rows fo L P) (rows ft M P) = kmat L M (ent (combine P W) g fo ft).
Proof.
  unfold gram, kmat, rows. rewrite map_map. apply map_ext. intros o. rewrite map_map. apply map_ext. intros t.
  rewrite map2_maps. unfold ent. revert W. induction P as [|x P IH]; intros [|w W]; try reflexivity.
  cbn [map2 map combine]. rewrite rsum_cons, <- IH. reflexivity.
Qed.
Lemma ent_sym {A B} WP g (fo : A -> R * R -> R) (ft : B -> R * R -> R) o t : ent WP g fo ft o t = ent WP g ft fo t o.
Proof. unfold ent. apply rsum_ext. intros. ring. Qed.
Lemma core2 {A B} (L : list (A * R)) (M : list (B * R)) WP g (fo : A -> R * R -> R) (ft : B -> R * R -> R) :
  rsum L (fun oc => rsum M (fun tc => snd oc * snd tc * ent WP g fo ft (fst oc) (fst tc))) =
  rsum WP (fun qw => g (fst qw) (snd qw) * (rsum L (fun oc => snd oc * fo (fst oc) (fst qw)) * rsum M (fun tc => snd tc * ft (fst tc) (fst qw)))).
Proof.
  transitivity (rsum WP (fun qw => rsum L (fun oc => rsum M (fun tc => snd oc * snd tc * (g (fst qw) (snd qw) * (fo (fst oc) (fst qw) * ft (fst tc) (fst qw))))))).
  { rewrite (rsum_swap WP L). apply rsum_ext. intros oc _. rewrite (rsum_swap WP M). apply rsum_ext. intros tc _. unfold ent. apply rsum_mult_l. }
  apply rsum_ext. intros [q w] _. cbn [fst snd]. rewrite (rsum_scal L), rsum_mult_l. apply rsum_ext. intros oc _.
  rewrite !rsum_mult_l. apply rsum_ext. intros tc _. ring.
Qed.

(* ---------- 0- and 2-forms ---------- *)
Section Scalar.
Variables (r0 r1 : rule) (J : ejac2).
Hypotheses (H0 : rule_ok r0) (H1 : rule_ok r1).
Theorem tinner0_ok P P' co cs : bilinear (tinner0 P P' r0 r1 J) co cs = tquad r0 r1 (fun x y => det2 (J x y) * (that0 P co x y * that0 P' cs x y)).
Proof.
  unfold tinner0. rewrite !tbasis0_rows. rewrite (gram2 (fun q w => ct2_Jacobian (at2 J q) * w)), bilinear_kmat, core2, tquad_points by assumption.
  apply rsum_ext. intros [q w] _. cbn [fst snd]. rewrite !sum0, det2_ct. unfold at2. ring.
Qed.
Hypothesis N : on_grid2 (fst r0) (fst r1) (fun x y => det2 (J x y) <> 0).
Theorem tinner2_ok P P' co cs vo vs :
  on_grid2 (fst r0) (fst r1) (fun x y => tpulls2 (J x y) (vo x y) (that2 P co x y)) ->
  on_grid2 (fst r0) (fst r1) (fun x y => tpulls2 (J x y) (vs x y) (that2 P' cs x y)) ->
  bilinear (tinner2 P P' r0 r1 J) co cs = tquad r0 r1 (fun x y => det2 (J x y) * (vo x y * vs x y)).
Proof.
  intros Vo Vs. unfold tinner2. rewrite !tbasis2_rows. rewrite (gram2 (fun q w => / ct2_Jacobian (at2 J q) * w)), bilinear_kmat, core2, tquad_points by assumption.
  apply rsum_ext. intros [q w] I. cbn [fst snd]. destruct (in_wp2 _ _ _ _ I) as [X Y].
  rewrite (sum2 P (fun k => ffn P k q)), (sum2 P' (fun k => ffn P' k q)), <- !that2_list. rewrite <- (Vo _ _ X Y), <- (Vs _ _ X Y).
  unfold at2. rewrite <- det2_ct. pose proof (N _ _ X Y) as Nq. cbv beta in Nq. field. exact Nq.
Qed.
End Scalar.

(* ---------- 1-forms ---------- *)
Definition bk {A B} (K00 K01 K10 K11 : A -> B -> R) (o : A + A) (t : B + B) : R :=
  match o, t with inl o, inl t => K00 o t | inl o, inr t => K01 o t | inr o, inl t => K10 o t | inr o, inr t => K11 o t end.
Lemma bmat2_kmat {A B} (L L' : list A) (M M' : list B) K00 K01 K10 K11 :
  bmat2 (kmat L M K00) (kmat L M' K01) (kmat L' M K10) (kmat L' M' K11) = kmat (map inl L ++ map inr L') (map inl M ++ map inr M') (bk K00 K01 K10 K11).
Proof.
  unfold bmat2, kmat. rewrite map_app, !map_map, !hstack2_map. f_equal; apply map_ext; intros o; rewrite map_app, !map_map; reflexivity.
Qed.
Lemma rsum_two {A} (L L' : list A) (c : list R) (f : (A + A) * R -> R) : rsum (combine (map inl L ++ map inr L') c) f =
  rsum (combine L (firstn (length L) c)) (fun ac => f (inl (fst ac), snd ac)) + rsum (combine L' (skipn (length L) c)) (fun ac => f (inr (fst ac), snd ac)).
Proof. rewrite combine_app_l, ReconProofs.rsum_app, map_length, !combine_map_l, !ReconProofs.rsum_map, combine_firstn_l. reflexivity. Qed.
Lemma rsum_two_in {A B} (L : list A) (M M' : list B) (c : list R) (f : A -> (B + B) * R -> R) : rsum L (fun a => rsum (combine (map inl M ++ map inr M') c) (f a)) =
  rsum L (fun a => rsum (combine M (firstn (length M) c)) (fun ac => f a (inl (fst ac), snd ac))) +
  rsum L (fun a => rsum (combine M' (skipn (length M) c)) (fun ac => f a (inr (fst ac), snd ac))).
Proof. rewrite <- rsum_plus. apply rsum_ext. intros a _. apply rsum_two. Qed.
Lemma tfac_sym o b b' j : tfac o b b' j = tfac o b' b j.
Proof.
  unfold tfac. destruct j as [[a c] [d e]]. cbn [ct2_inverse ct2_inverse_metric_matrix]. destruct o, b, b'; try reflexivity; f_equal; ring.
Qed.
Lemma tfac_dot o (J : mat22) w w' u u' : det2 J <> 0 -> tpulls1 o J w u -> tpulls1 o J w' u' ->
  tfac o false false J * (u (ax o false) * u' (ax o false)) + tfac o false true J * (u (ax o false) * u' (ax o true)) +
  (tfac o true false J * (u (ax o true) * u' (ax o false)) + tfac o true true J * (u (ax o true) * u' (ax o true))) = det2 J * dot2 w w'.
Proof.
  destruct J as [[a b] [c d]]. intros N P P'. pose proof (P true) as T1. pose proof (P false) as T2. pose proof (P' true) as T3. pose proof (P' false) as T4.
  assert (N1 : a * d - b * c <> 0) by (intros E; apply N; rewrite <- E; unfold det2, cross2, mcol, comp; cbn [fst snd]; ring).
  destruct w as [x y], w' as [x' y'].
  destruct o; cbn [ax negb]; rewrite <- T1, <- T2, <- T3, <- T4; unfold det2, dot2, cross2, mcol, comp, tfac; cbn [fst snd ct2_inverse ct2_inverse_metric_matrix ct2_Jacobian]; field; exact N1.
Qed.
Definition kin o P P' M e r0 r1 (J : ejac2) : tedge + tedge -> tedge + tedge -> R :=
  let E b b' := ent (wp2 r0 r1) (fun q w => w * tfac o b b' (at2 J q)) (sfn o P M e) (sfn o P' M e) in
  bk (E false false) (E false true) (E true false) (E true true).
Definition two o (p : nat) : list (tedge + tedge) := map inl (T1 (ax o false) p) ++ map inr (T1 (ax o true) p).
Lemma two_len o p : length (two o p) = tnb1 p.
Proof. unfold two. rewrite app_length, !map_length, <- app_length. apply TE_len. Qed.
Lemma tinner1_kmat same o P P' M e r0 r1 J : (same = true -> P = P') -> tinner1 same o P P' M e r0 r1 J = kmat (two o (pdeg P)) (two o (pdeg P')) (kin o P P' M e r0 r1 J).
Proof.
  intros S1. unfold tinner1. rewrite !tbasis1_at_rows. cbv zeta. unfold tmesh at 2 3 4 5. rewrite !(gram2 (fun q w => w * tfac o _ _ (at2 J q))). unfold kin, two. rewrite <- bmat2_kmat.
  f_equal. destruct same; [|reflexivity]. rewrite <- (S1 eq_refl). unfold rows. rewrite map_length, transpose_kmat. apply kmat_ext. intros a b _ _. rewrite ent_sym.
  unfold ent. apply rsum_ext. intros [q w] _. cbn [fst snd]. rewrite (tfac_sym o true false). reflexivity.
Qed.
Section One.
Variables (r0 r1 : rule) (J : ejac2).
Hypotheses (H0 : rule_ok r0) (H1 : rule_ok r1).
Hypothesis N : on_grid2 (fst r0) (fst r1) (fun x y => det2 (J x y) <> 0).
Theorem tinner1_ok same o P P' M e co cs vo vs : (same = true -> P = P') ->
  on_grid2 (fst r0) (fst r1) (fun x y => tpulls1 o (J x y) (vo x y) (fun d => that1 o P M e co d x y)) ->
  on_grid2 (fst r0) (fst r1) (fun x y => tpulls1 o (J x y) (vs x y) (fun d => that1 o P' M e cs d x y)) ->
  bilinear (tinner1 same o P P' M e r0 r1 J) co cs = tquad r0 r1 (fun x y => det2 (J x y) * dot2 (vo x y) (vs x y)).
Proof.
  intros S1 Vo Vs. rewrite (tinner1_kmat _ _ _ _ _ _ _ _ _ S1), bilinear_kmat. unfold two. rewrite rsum_two.
  rewrite !rsum_two_in. unfold kin. cbn [bk fst snd]. rewrite !core2, <- !rsum_plus, tquad_points by assumption. rewrite !T1_first.
  apply rsum_ext. intros [q w] I. cbn [fst snd]. destruct (in_wp2 _ _ _ _ I) as [X Y]. rewrite !sum1_first, !sum1_second.
  rewrite <- (tfac_dot o (J (fst q) (snd q)) (vo (fst q) (snd q)) (vs (fst q) (snd q)) _ _ (N _ _ X Y) (Vo _ _ X Y) (Vs _ _ X Y)). unfold at2. ring.
Qed.
End One.
