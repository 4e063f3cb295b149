(* Cases for the theorems about region interpolations. *)
From Coq Require Import Reals List Lra Lia.
From Verif Require Import TfiModel TransModel TransSpec Edge2Model TfiSpec TfiProofs TfiProofs2 TfiProofs3 TfiProofs4
  Edge2Proofs.
Import ListNotations.
Open Scope R_scope.

Lemma crazy_positive_spec : forall cc a b c d e f, a < b -> c < d -> e < f ->
  ((forall r s t, incube r s t -> 0 < det3 (crazy_Jacobian_matrix cc ((a, b), (c, d), (e, f)) r s t)) <->
   4 * PI ^ 2 * cc ^ 2 < 3).
Proof.
  intros cc a b c d e f H1 H2 H3.
  rewrite <- (crazy_positive_iff cc ((a, b), (c, d), (e, f))) by (cbn [len_of]; lra).
  split; intros H r s t W; specialize (H r s t W); rewrite interp_Jacobian_det in *; exact H.
Qed.

Lemma crazy_bijection_spec : forall cc a b c d e f, a < b -> c < d -> e < f ->
  4 * PI ^ 2 * cc ^ 2 < 3 ->
  one_to_one (crazy_map cc ((a, b), (c, d), (e, f))) /\
  has_image (crazy_map cc ((a, b), (c, d), (e, f)))
    (fun x y z => a <= x <= b /\ c <= y <= d /\ e <= z <= f).
Proof.
  intros cc a b c d e f H1 H2 H3 G. split.
  - apply crazy_one_to_one; cbn [len_of]; try lra. exact G.
  - pose proof (crazy_image cc ((a, b), (c, d), (e, f))) as Q. cbn [len_of lo_of] in Q.
    specialize (Q ltac:(lra) ltac:(lra) ltac:(lra) G).
    intros x y z. rewrite <- (Q x y z). split; intros; lra.
Qed.

Lemma crazy2_spec : forall cc a b c d, a < b -> c < d ->
  jacobian2_of (crazy2_map cc ((a, b), (c, d))) (crazy2_Jacobian_matrix cc ((a, b), (c, d))) /\
  ((forall r s, insquare r s -> 0 < det2 (crazy2_Jacobian_matrix cc ((a, b), (c, d)) r s)) <-> Rabs cc * PI < 1) /\
  (Rabs cc * PI < 1 ->
     one_to_one2 (crazy2_map cc ((a, b), (c, d))) /\
     has_image2 (crazy2_map cc ((a, b), (c, d))) (fun x y => a <= x <= b /\ c <= y <= d)) /\
  (1 < Rabs cc * PI -> ~ one_to_one2 (crazy2_map cc ((a, b), (c, d)))).
Proof.
  intros cc a b c d H1 H2. split; [apply crazy2_jacobian|]. split; [|split].
  - apply crazy2_positive_iff; cbn [len2]; lra.
  - intro G. split.
    + apply crazy2_one_to_one; cbn [len2]; try lra. exact G.
    + pose proof (crazy2_image cc ((a, b), (c, d))) as Q. cbn [len2 lo2] in Q.
      specialize (Q ltac:(lra) ltac:(lra) G).
      intros x y. rewrite <- (Q x y). split; intros; lra.
  - apply crazy2_folds.
Qed.

Lemma crazy2_boundary_spec : forall cc a b c d r s, r = 0 \/ r = 1 \/ s = 0 \/ s = 1 ->
  crazy2_map cc ((a, b), (c, d)) false r s = a + (b - a) * r /\
  crazy2_map cc ((a, b), (c, d)) true r s = c + (d - c) * s.
Proof.
  intros cc a b c d r s H. rewrite !(crazy2_boundary cc _ _ r s H). cbn [len2 lo2 pick2]. split; ring.
Qed.

Lemma arcs_spec : forall c a b, dist2 c (fst a) (snd a) = dist2 c (fst b) (snd b) ->
  0 < dist2 c (fst a) (snd a) -> a <> b ->
  (forall e o, e = eACW c \/ e = eAACW c ->
     dist2 c (cx (edge_curve e a b) o) (cy (edge_curve e a b) o) = dist2 c (fst a) (snd a)) /\
  (exists w, 0 < w < 2 * PI /\ forall o,
     spin c (edge_curve (eACW c) a b) (edge_curve_o (eACW c) a b) o = - (dist2 c (fst a) (snd a) * w)) /\
  (exists w, 0 < w < 2 * PI /\ forall o,
     spin c (edge_curve (eAACW c) a b) (edge_curve_o (eAACW c) a b) o = dist2 c (fst a) (snd a) * w).
Proof.
  intros c a b E P N. split; [|split].
  - intros e o H. apply arc_circle; exact H.
  - exact (acw_turns c a b (conj E P) N).
  - exact (aacw_turns c a b (conj E P) N).
Qed.

Lemma orth_volume_spec : forall quad a b c d e f, exact_linear quad ->
  region_volume quad (orth_Jacobian_matrix ((a, b), (c, d), (e, f))) = (b - a) * (d - c) * (f - e).
Proof. intros quad a b c d e f Q. exact (orth_volume quad ((a, b), (c, d), (e, f)) Q). Qed.

Lemma volume_false : exists k,
  (forall r s t, tf_map (plane_sides k) cX r s t = r /\
     tf_map (plane_sides k) cY r s t = s * (1 + r) /\ tf_map (plane_sides k) cZ r s t = t) /\
  (forall r s t, det3 (tf_Jacobian_matrix (plane_sides k) r s t) = 1 + r) /\
  (exists pr : Riemann_integrable (fun r => 1 + r) 0 1, RiemannInt pr = 3 / 2) /\
  (forall quad, exact_linear quad -> region_volume quad (tf_Jacobian_matrix (plane_sides k)) = 1).
Proof.
  exists wedge. split; [exact wedge_map|]. split; [|split; [exact wedge_integral | exact wedge_volume]].
  intros. rewrite <- interp_Jacobian_det. apply wedge_det.
Qed.

Lemma crazy_valid_false : ~ (forall cc bd, 0 <= cc <= 3 / 10 -> one_to_one (crazy_map cc bd)).
Proof.
  intro H. apply (crazy_folds (3 / 10) ((0, 1), (0, 1), (0, 1)) three_tenths). apply H. lra.
Qed.

(* ---- the check ---- *)
Lemma linspace_in01 : forall n u, (2 <= n)%nat -> In u (linspace01 n) -> in01 u.
Proof.
  intros n u Hn H. unfold linspace01 in H. apply in_map_iff in H. destruct H as (k & <- & Hk).
  apply in_seq in Hk. unfold in01.
  assert (P : 0 < INR (n - 1)) by (apply lt_0_INR; lia).
  assert (Q : 0 <= INR k) by apply pos_INR.
  assert (L : INR k <= INR (n - 1)) by (apply le_INR; lia).
  split.
  - apply Rmult_le_pos; [exact Q | left; apply Rinv_0_lt_compat; exact P].
  - apply (Rmult_le_reg_r (INR (n - 1))); [exact P|]. unfold Rdiv. rewrite Rmult_assoc, Rinv_l by lra. lra.
Qed.

Lemma check_passes : forall g n, agree g -> (2 <= n)%nat -> check_line_consistency n g.
Proof.
  intros g n A Hn c u Hu. apply (linspace_in01 n u Hn) in Hu.
  unfold line_check_at, almost, l_NW, l_WN, l_NE, l_EN, l_NB, l_BN, l_NF, l_FN, l_SW, l_WS, l_SE, l_ES,
    l_SB, l_BS, l_SF, l_FS, l_WB, l_BW, l_WF, l_FW, l_EB, l_BE, l_EF, l_FE.
  rewrite (aWN g A), (aEN g A), (aBN g A), (aFN g A), (aWS g A), (aES g A), (aBS g A), (aFS g A),
    (aBW g A), (aFW g A), (aBE g A), (aFE g A) by exact Hu.
  assert (Z : forall x, Rabs (x - x) < 15 / 10000000)
    by (intro x; replace (x - x) with 0 by ring; rewrite Rabs_R0; lra).
  repeat split; apply Z.
Qed.

(* the unit cube with a curved west side: x is moved by t (1 - t) r 0 ... *)
Definition curved : Sides :=
  let u := plane_sides unit_cube in
  mkSides (gN u) (gS u)
    (mkSide (fun c p q => sval (gW u) c p q + match c with cX => 4 * p * (1 - p) * (q * (1 - q)) | _ => 0 end)
            (fun c p q => sdp (gW u) c p q + match c with cX => 4 * (1 - 2 * p) * (q * (1 - q)) | _ => 0 end)
            (fun c p q => sdq (gW u) c p q + match c with cX => 4 * p * (1 - p) * (1 - 2 * q) | _ => 0 end))
    (gE u) (gB u) (gF u).

Lemma curved_agree : agree curved.
Proof.
  intros c d d' p q p' q' _ _ _ _ E.
  pose proof (f_equal (fun x => fst (fst x)) E) as E1.
  pose proof (f_equal (fun x => snd (fst x)) E) as E2. pose proof (f_equal snd E) as E3. clear E.
  destruct d, d'; cbn [place fst snd] in E1, E2, E3; subst; try lra;
    cbn [side_of curved plane_sides gN gS gW gE gB gF plane sval fit_abcd unit_cube box k0 k1 k2 k3 k4 k5 k6 k7 get];
    destruct c; cbn [get]; ring.
Qed.
Lemma curved_ok : agree curved /\ tf_map curved cX (1 / 2) 0 (1 / 2) = 3 / 4.
Proof.
  split; [exact curved_agree|].
  unfold tf_map, NnN, SsS, WwW, EeE, BbB, FfF, l_NW, l_NE, l_SW, l_SE, l_NB, l_NF,
    l_SB, l_SF, l_WB, l_WF, l_EB, l_EF, p_NWB, p_NWF, p_NEB, p_NEF, p_SWB, p_SWF, p_SEB, p_SEF.
  cbn [curved plane_sides gN gS gW gE gB gF plane sval fit_abcd unit_cube box k0 k1 k2 k3 k4 k5 k6 k7 get].
  field.
Qed.

Lemma square_lim : forall a b c x, derivable_pt_lim (fun y => a + b * y + c * (y * y)) x (b + 2 * c * x).
Proof.
  intros a b c x. apply (one_term a b c (fun z => z * z) (1 * x + x * 1)); [|ring].
  apply (derivable_pt_lim_mult id id); apply derivable_pt_lim_id.
Qed.
Lemma curved_derivs : side_derivs curved /\ tf_Jr curved cX (1 / 2) 0 (1 / 4) = 1 /\
  tf_Jt curved cX (1 / 2) 0 (1 / 4) = 1 / 2.
Proof.
  split.
  - intros d c p q. destruct d; try apply plane_side_derivs.
    pose proof (plane_side_derivs (k0 unit_cube) (k1 unit_cube) (k4 unit_cube) (k5 unit_cube) c p q) as (D1 & D2).
    cbn [side_of curved gW sval sdp sdq]. fold unit_cube.
    destruct c.
    2,3: split; [|]; (eapply lim_ext'; [|first [rewrite Rplus_0_r; exact D1 | rewrite Rplus_0_r; exact D2]]);
         intro; rewrite Rplus_0_r; reflexivity.
    cbn [plane_sides gW]. split.
    + apply (derivable_pt_lim_plus (fun x => sval (plane _ _ _ _) cX x q) (fun x => 4 * x * (1 - x) * (q * (1 - q)))).
      * exact D1.
      * apply (lim_ext' (fun y => 0 + 4 * (q * (1 - q)) * y + - (4 * (q * (1 - q))) * (y * y))); [intro; ring|].
        replace (4 * (1 - 2 * p) * (q * (1 - q))) with (4 * (q * (1 - q)) + 2 * - (4 * (q * (1 - q))) * p) by ring.
        apply square_lim.
    + apply (derivable_pt_lim_plus (fun x => sval (plane _ _ _ _) cX p x) (fun x => 4 * p * (1 - p) * (x * (1 - x)))).
      * exact D2.
      * apply (lim_ext' (fun y => 0 + 4 * p * (1 - p) * y + - (4 * p * (1 - p)) * (y * y))); [intro; ring|].
        replace (4 * p * (1 - p) * (1 - 2 * q)) with (4 * p * (1 - p) + 2 * - (4 * p * (1 - p)) * q) by ring.
        apply square_lim.
  - unfold tf_Jr, tf_Jt,
    NnN, SsS, WwW, EeE, BbB, FfF, Ns_Ns, Nt_Nt, Ss_Ss, St_St, Wr_Wr, Wt_Wt,
      Er_Er, Et_Et, Br_Br, Bs_Bs, Fr_Fr, Fs_Fs, l_NW, l_NE, l_SW, l_SE, l_NB, l_NF,
      l_SB, l_SF, l_WB, l_WF, l_EB, l_EF, l_NW_t, l_NE_t, l_NB_s, l_NF_s, l_SW_t, l_SE_t, l_SB_s, l_SF_s,
      l_WB_r, l_WF_r, l_EB_r, l_EF_r, p_NWB, p_NWF, p_NEB, p_NEF, p_SWB, p_SWF, p_SEB, p_SEF.
    cbn [curved plane_sides gN gS gW gE gB gF plane sval sdp sdq fit_abcd unit_cube box k0 k1 k2 k3 k4 k5 k6 k7 get].
    split; field.
Qed.

Lemma bulged_derivs_W : forall c p q,
  derivable_pt_lim (fun x => sval (gW bulged) c x q) p (sdp (gW bulged) c p q) /\
  derivable_pt_lim (fun x => sval (gW bulged) c p x) q (sdq (gW bulged) c p q).
Proof.
  intros c p q.
  pose proof (plane_side_derivs (k0 unit_cube) (k1 unit_cube) (k4 unit_cube) (k5 unit_cube) c p q) as (D1 & D2).
  cbn [bulged gW sval sdp sdq]. destruct c.
  2,3: split; (eapply lim_ext'; [|first [rewrite Rplus_0_r; exact D1 | rewrite Rplus_0_r; exact D2]]);
       intro; rewrite Rplus_0_r; reflexivity.
  cbn [plane_sides gW]. split.
  - apply (derivable_pt_lim_plus (fun x => sval (plane _ _ _ _) cX x q) (fun x => (1 - x) * bump q)); [exact D1|].
    apply (lim_ext' (fun y => bump q + - bump q * y)); [intro; ring | apply affine_lim].
  - apply (derivable_pt_lim_plus (fun x => sval (plane _ _ _ _) cX p x) (fun x => (1 - p) * bump x)); [exact D2|].
    apply (derivable_pt_lim_scal bump (1 - p) q). unfold bump, dbump.
    pose proof (affine_lim 0 1 q) as A1. pose proof (affine_lim (-1) 3 q) as A2.
    pose proof (affine_lim (-1) 2 q) as A3. pose proof (affine_lim (-2) 3 q) as A4.
    pose proof (affine_lim (-1) 1 q) as A5.
    pose proof (derivable_pt_lim_mult _ _ q _ _ (derivable_pt_lim_mult _ _ q _ _
      (derivable_pt_lim_mult _ _ q _ _ (derivable_pt_lim_mult _ _ q _ _ A1 A2) A3) A4) A5) as D.
    unfold mult_fct in D.
    match type of D with derivable_pt_lim ?f _ ?l => 
      match goal with |- derivable_pt_lim _ _ ?l' => replace l' with l by ring end;
      apply (lim_ext' f); [intro; ring | exact D] end.
Qed.

Lemma bulged_refutes : exists g, side_derivs g /\
  (forall n, (2 <= n <= 4)%nat -> check_line_consistency n g) /\ ~ restricts g (tf_map g).
Proof.
  exists bulged. split; [|split; [exact bulged_checked|]].
  - intros d c p q. destruct d; try apply plane_side_derivs. apply bulged_derivs_W.
  - intro H. apply bulged_off. specialize (H cX fN 0 (1 / 4)). cbn [place at3 side_of] in H.
    apply H; unfold in01; lra.
Qed.

Lemma linspace_case : agree curved /\ linspace01 3 = [0 / 2; 1 / 2; 2 / 2].
Proof. split; [exact curved_agree|]. unfold linspace01. cbn. repeat f_equal; ring. Qed.

Lemma crazy_case : 4 * PI ^ 2 * (1 / 10) ^ 2 < 3 /\
  crazy_map (1 / 10) ((0, 1), (0, 1), (0, 1)) cX (1 / 4) (1 / 4) (1 / 4) = 3 / 10.
Proof.
  split.
  - pose proof PI_4 as P4. pose proof PI_RGT_0 as P0.
    assert (PI ^ 2 <= 16).
    { generalize dependent PI. intros p H0 H1. nra. }
    lra.
  - rewrite crazy_formula. unfold S3. cbn [len_of lo_of pick].
    replace (2 * PI * (1 / 4)) with (PI / 2) by field. rewrite sin_PI2. field.
Qed.

Lemma crazy2_case : Rabs (3 / 10) * PI < 1 /\
  crazy2_map (3 / 10) ((0, 1), (0, 1)) false (1 / 4) (1 / 4) = 4 / 10.
Proof.
  split.
  - rewrite Rabs_right by lra. pose proof (PI_ineq 3) as (_ & H).
    cbv [sum_f_R0 tg_alt PI_tg pow Nat.mul Nat.add INR] in H. lra.
  - rewrite crazy2_formula. unfold S2. cbn [len2 lo2 pick2].
    replace (2 * PI * (1 / 4)) with (PI / 2) by field. rewrite sin_PI2. field.
Qed.

Lemma quarter_angles : angle (0, 0) (1, 0) = 0 /\ angle (0, 0) (0, 1) = PI / 2.
Proof.
  unfold angle, hypot. cbn [fst snd]. split.
  - destruct (Rlt_dec (0 - 0) 0); [lra|].
    replace (1 * 1 + 0 * 0) with 1 by ring. replace ((1 - 0) * (1 - 0) + (0 - 0) * (0 - 0)) with 1 by ring.
    rewrite sqrt_1. replace ((1 * (1 - 0) + 0 * (0 - 0)) / (1 * 1)) with 1 by field. apply acos_1.
  - destruct (Rlt_dec (1 - 0) 0); [lra|].
    replace (1 * 1 + 0 * 0) with 1 by ring. replace ((0 - 0) * (0 - 0) + (1 - 0) * (1 - 0)) with 1 by ring.
    rewrite sqrt_1. replace ((1 * (0 - 0) + 0 * (1 - 0)) / (1 * 1)) with 0 by field. apply acos_0.
Qed.
Lemma quarter : dist2 (0, 0) 1 0 = dist2 (0, 0) 0 1 /\ 0 < dist2 (0, 0) 1 0 /\
  aacw_end (0, 0) (1, 0) (0, 1) = PI / 2 /\ acw_end (0, 0) (1, 0) (0, 1) = PI / 2 - 2 * PI.
Proof.
  destruct quarter_angles as (A & B). pose proof PI_RGT_0.
  unfold dist2, aacw_end, acw_end. cbn [fst snd]. rewrite A, B.
  destruct (Rlt_dec (PI / 2) 0); [lra|]. destruct (Rlt_dec 0 (PI / 2)); [|lra]. repeat split; lra.
Qed.

(* a sector: the upper edge is a quarter of a circle of radius one, the lower one of radius two *)
Definition quarter_region : Region2 :=
  mkRegion2 (1, 0) (2, 0) (0, 1) (0, 2) (eAACW (0, 0)) (eAACW (0, 0)) eStraight eStraight.
Lemma quarter_region_ok : region_well_placed quarter_region.
Proof.
  unfold region_well_placed, quarter_region, well_placed, dist2.
  cbn [tU tD tL tR kUL kUR kDL kDR fst snd]. repeat split; lra.
Qed.
