(* Proofs about TfiModel: plane sides, boxes, the sampled check. *)
From Coq Require Import Reals List Lra Lia.
From Verif Require Import TfiModel TransModel Edge2Model TfiSpec TfiProofs.
Import ListNotations.
Open Scope R_scope.

(* ---- plane sides ---- *)
Lemma plane_agree : forall k, agree (plane_sides k).
Proof.
  intros k c d d' p q p' q' _ _ _ _ E.
  pose proof (f_equal (fun x => fst (fst x)) E) as E1.
  pose proof (f_equal (fun x => snd (fst x)) E) as E2. pose proof (f_equal snd E) as E3. clear E.
  destruct d, d'; cbn [place fst snd] in E1, E2, E3; subst; try lra;
    cbn [side_of plane_sides gN gS gW gE gB gF plane sval fit_abcd]; ring.
Qed.

Lemma affine_lim : forall a b x, derivable_pt_lim (fun y => a + b * y) x b.
Proof.
  intros a b x. pose proof (lim_comb [] a b x (fun _ _ _ H => match H with end)) as H.
  cbn [dcomb] in H. rewrite Rplus_0_r in H. revert H. apply lim_ext'. intro; cbn [comb]; ring.
Qed.

Lemma plane_side_derivs : forall q0 q1 q2 q3 c p q,
  derivable_pt_lim (fun x => sval (plane q0 q1 q2 q3) c x q) p (sdp (plane q0 q1 q2 q3) c p q) /\
  derivable_pt_lim (fun x => sval (plane q0 q1 q2 q3) c p x) q (sdq (plane q0 q1 q2 q3) c p q).
Proof.
  intros. cbn [plane sval sdp sdq fit_abcd].
  set (d := get q0 c). set (b := get q1 c - d). set (e := get q2 c - d). set (a := get q3 c - b - e - d).
  split.
  - replace (a * q + b + 0 * p) with (a * q + b) by ring.
    apply (lim_ext' (fun y => (e * q + d) + (a * q + b) * y)); [intro; ring | apply affine_lim].
  - replace (a * p + e + 0 * q) with (a * p + e) by ring.
    apply (lim_ext' (fun y => (b * p + d) + (a * p + e) * y)); [intro; ring | apply affine_lim].
Qed.

Lemma plane_derivs : forall k, side_derivs (plane_sides k).
Proof. intros k d c p q. destruct d; apply plane_side_derivs. Qed.

Lemma plane_trilinear : forall k c r s t, tf_map (plane_sides k) c r s t = trilinear k c r s t.
Proof.
  intros. unfold trilinear, rsum, bools. cbn [flat_map map app fold_right wgt corner].
  unfold tf_map, NnN, SsS, WwW, EeE, BbB, FfF, l_NW, l_NE, l_SW, l_SE, l_NB, l_NF,
    l_SB, l_SF, l_WB, l_WF, l_EB, l_EF, p_NWB, p_NWF, p_NEB, p_NEF, p_SWB, p_SWF, p_SEB, p_SEF.
  cbn [plane_sides gN gS gW gE gB gF plane sval fit_abcd]. ring.
Qed.

(* ---- boxes ---- *)
Lemma orth_is_transfinite : forall lo hi c r s t,
  orth_map (orth_bounds (box lo hi)) c r s t = tf_map (plane_sides (box lo hi)) c r s t.
Proof.
  intros [[x0 y0] z0] [[x1 y1] z1] c r s t. rewrite plane_trilinear.
  unfold trilinear, rsum, bools, orth_map, orth_bounds, box.
  cbn [flat_map map app fold_right wgt corner k0 k1 k2 k3 k4 k5 k6 k7 get].
  destruct c; cbn [get]; ring.
Qed.

Lemma orth_jacobian : forall bd, jacobian_of (orth_map bd) (orth_Jacobian_matrix bd).
Proof.
  intros [[[a b] [c d]] [e f]] co r s t. unfold orth_map, orth_Jacobian_matrix.
  destruct co; cbn [mrow]; repeat split;
    match goal with
    | |- derivable_pt_lim _ _ 0 => apply derivable_pt_lim_const
    | |- derivable_pt_lim (fun x => ?m * x + ?n) _ _ =>
        apply (lim_ext' (fun y => n + m * y)); [intro; ring | apply affine_lim]
    end.
Qed.

(* when the corners of six plane sides form a box, the Jacobian matrix is diagonal *)
Lemma box_jacobian : forall lo hi r s t,
  tf_Jacobian_matrix (plane_sides (box lo hi)) r s t = orth_Jacobian_matrix (orth_bounds (box lo hi)) r s t.
Proof.
  intros [[x0 y0] z0] [[x1 y1] z1] r s t.
  unfold tf_Jacobian_matrix, orth_Jacobian_matrix, orth_bounds, tf_Jr, tf_Js, tf_Jt,
    NnN, SsS, WwW, EeE, BbB, FfF, Ns_Ns, Nt_Nt, Ss_Ss, St_St, Wr_Wr, Wt_Wt,
      Er_Er, Et_Et, Br_Br, Bs_Bs, Fr_Fr, Fs_Fs, l_NW, l_NE, l_SW, l_SE, l_NB, l_NF,
      l_SB, l_SF, l_WB, l_WF, l_EB, l_EF, l_NW_t, l_NE_t, l_NB_s, l_NF_s, l_SW_t, l_SE_t, l_SB_s, l_SF_s,
      l_WB_r, l_WF_r, l_EB_r, l_EF_r, p_NWB, p_NWF, p_NEB, p_NEF, p_SWB, p_SWF, p_SEB, p_SEF.
  cbn [plane_sides gN gS gW gE gB gF plane sval sdp sdq fit_abcd box k0 k1 k2 k3 k4 k5 k6 k7 get].
  repeat (apply f_equal2); ring.
Qed.

Lemma interp_Jacobian_det : forall m, interp_Jacobian m = det3 m.
Proof. intros [[[[a b] c] [[d e] f]] [[g h] i]]. cbn [interp_Jacobian det3]. ring. Qed.

(* ---- the sampled check lets wrong sides through ---- *)
Definition bump (q : R) : R := q * (3 * q - 1) * (2 * q - 1) * (3 * q - 2) * (q - 1).
Definition unit_cube : Corners := box (0, 0, 0) (1, 1, 1).
Definition dbump (q : R) : R :=
  (((1 * (-1 + 3 * q) + q * 3) * (-1 + 2 * q) + q * (-1 + 3 * q) * 2) * (-2 + 3 * q)
   + q * (-1 + 3 * q) * (-1 + 2 * q) * 3) * (-1 + q)
  + q * (-1 + 3 * q) * (-1 + 2 * q) * (-2 + 3 * q) * 1.
(* the west side of the unit cube bulged off its edge with the north side *)
Definition bulged : Sides :=
  let u := plane_sides unit_cube in
  mkSides (gN u) (gS u)
    (mkSide (fun c p q => sval (gW u) c p q + match c with cX => (1 - p) * bump q | _ => 0 end)
            (fun c p q => sdp (gW u) c p q + match c with cX => - bump q | _ => 0 end)
            (fun c p q => sdq (gW u) c p q + match c with cX => (1 - p) * dbump q | _ => 0 end))
    (gE u) (gB u) (gF u).

Lemma linspace_small : forall n u, (2 <= n <= 4)%nat -> In u (linspace01 n) ->
  u = 0 \/ u = 1 / 3 \/ u = 1 / 2 \/ u = 2 / 3 \/ u = 1.
Proof.
  intros n u Hn Hin. assert (n = 2 \/ n = 3 \/ n = 4)%nat as [-> | [-> | ->]] by lia;
    cbn in Hin; repeat destruct Hin as [<-|Hin]; try contradiction; try lra; field_simplify; lra.
Qed.

Lemma bulged_checked : forall n, (2 <= n <= 4)%nat -> check_line_consistency n bulged.
Proof.
  intros n Hn c u Hin. apply (linspace_small n u Hn) in Hin.
  unfold line_check_at, almost, l_NW, l_WN, l_NE, l_EN, l_NB, l_BN, l_NF, l_FN, l_SW, l_WS, l_SE, l_ES,
    l_SB, l_BS, l_SF, l_FS, l_WB, l_BW, l_WF, l_FW, l_EB, l_BE, l_EF, l_FE.
  cbn [bulged plane_sides gN gS gW gE gB gF plane sval fit_abcd unit_cube box k0 k1 k2 k3 k4 k5 k6 k7 get].
  assert (Z : bump u = 0) by (unfold bump; decompose [or] Hin; subst; field).
  assert (Z0 : bump 0 = 0) by (unfold bump; ring). assert (Z1 : bump 1 = 0) by (unfold bump; ring).
  destruct c; repeat apply conj;
    match goal with |- Rabs ?x < _ => replace x with 0; [rewrite Rabs_R0; lra|] end;
    cbn [get]; rewrite ?Z, ?Z0, ?Z1; ring.
Qed.

Lemma bulged_off : tf_map bulged cX 0 0 (1 / 4) <> sval (gN bulged) cX 0 (1 / 4).
Proof.
  unfold tf_map, NnN, SsS, WwW, EeE, BbB, FfF, l_NW, l_NE, l_SW, l_SE, l_NB, l_NF,
    l_SB, l_SF, l_WB, l_WF, l_EB, l_EF, p_NWB, p_NWF, p_NEB, p_NEF, p_SWB, p_SWF, p_SEB, p_SEF.
  cbn [bulged plane_sides gN gS gW gE gB gF plane sval fit_abcd unit_cube box k0 k1 k2 k3 k4 k5 k6 k7 get].
  unfold bump. lra.
Qed.
