(** Proofs about particular exact solutions in two dimensions, and about
    piecewise functions. *)
From Coq Require Import Reals Lra Bool List Lia.
From Verif Require Import FieldModel FieldSpec ExactModel ExactSpec
  ExactCaseModel ExactProofs ExactProofs2 ExactProofs3.
Import ListNotations.
Open Scope R_scope.

Ltac partial2 :=
  let t := fresh "t" in let x := fresh "x" in let y := fresh "y" in
  intros t x y; cbn [line2 coordinate2]; derive.

(** *** The Taylor-Green vortex *)

Section TGV.
Variable nu : R.

Definition tgv_ux : field2 := fun t x y =>
  - PI * (cos (PI * x) * cos (PI * y) * exp (-2 * PI ^ 2 * nu * t)).
Definition tgv_uy : field2 := fun t x y =>
  PI * (sin (PI * x) * sin (PI * y) * exp (-2 * PI ^ 2 * nu * t)).
Definition tgv_px : field2 := fun t x y =>
  - (PI / 2) * (sin (2 * PI * x) * exp (- 4 * PI ^ 2 * nu * t)).
Definition tgv_py : field2 := fun t x y =>
  - (PI / 2) * (sin (2 * PI * y) * exp (- 4 * PI ^ 2 * nu * t)).

Lemma tgv_u_partial : is_partial2 BX (tgv_u nu) tgv_ux /\
  is_partial2 BY (tgv_u nu) tgv_uy /\
  is_partial2 BT (tgv_u nu) (fun t x y => -2 * PI ^ 2 * nu * tgv_u nu t x y) /\
  is_partial2 BX tgv_ux (fun t x y => - PI ^ 2 * tgv_u nu t x y) /\
  is_partial2 BY tgv_uy (fun t x y => - PI ^ 2 * tgv_u nu t x y) /\
  is_partial2 BY tgv_ux (fun t x y => PI ^ 2 * tgv_v nu t x y) /\
  is_partial2 BX tgv_uy (fun t x y => PI ^ 2 * tgv_v nu t x y).
Proof.
  unfold tgv_u, tgv_v, tgv_ux, tgv_uy. repeat split; partial2; ring.
Qed.

(** The other way round: v_x = - u_y and v_y = - u_x. *)
Lemma tgv_v_partial :
  is_partial2 BX (tgv_v nu) (fun t x y => - tgv_uy t x y) /\
  is_partial2 BY (tgv_v nu) (fun t x y => - tgv_ux t x y) /\
  is_partial2 BT (tgv_v nu) (fun t x y => -2 * PI ^ 2 * nu * tgv_v nu t x y) /\
  is_partial2 BX (fun t x y => - tgv_uy t x y)
    (fun t x y => - PI ^ 2 * tgv_v nu t x y) /\
  is_partial2 BY (fun t x y => - tgv_ux t x y)
    (fun t x y => - PI ^ 2 * tgv_v nu t x y) /\
  is_partial2 BY (fun t x y => - tgv_uy t x y)
    (fun t x y => PI ^ 2 * tgv_u nu t x y) /\
  is_partial2 BX (fun t x y => - tgv_ux t x y)
    (fun t x y => PI ^ 2 * tgv_u nu t x y).
Proof.
  unfold tgv_u, tgv_v, tgv_ux, tgv_uy. repeat split; partial2; ring.
Qed.

Lemma tgv_p_partial : is_partial2 BX (tgv_p nu) tgv_px /\
  is_partial2 BY (tgv_p nu) tgv_py.
Proof.
  unfold tgv_p, tgv_px, tgv_py. split; partial2; field.
Qed.

Lemma exp_twice : forall t, exp (- 4 * PI ^ 2 * nu * t)
  = exp (-2 * PI ^ 2 * nu * t) * exp (-2 * PI ^ 2 * nu * t).
Proof. intro t. rewrite <- exp_plus. f_equal. ring. Qed.

Lemma double_sin : forall a, sin (2 * PI * a) = 2 * sin (PI * a) * cos (PI * a).
Proof. intro a. rewrite Rmult_assoc. apply sin_2a. Qed.

Lemma tgv_case : forall e, exact_flow2 e -> g_nu e = nu ->
  d_val (g_u e) = tgv_u nu -> d_val (g_v e) = tgv_v nu ->
  d_val (g_p e) = tgv_p nu ->
  same2 (force_x2 e) zero2 /\ same2 (force_y2 e) zero2.
Proof.
  intros e He En Eu Ev Ep.
  destruct tgv_u_partial as [Ux [Uy [Ut [Uxx [Uyy [Uxy Uyx]]]]]].
  destruct tgv_v_partial as [Vx [Vy [Vt [Vxx [Vyy [Vxy Vyx]]]]]].
  destruct tgv_p_partial as [Px Py].
  assert (Su : smooth2 (g_u e)).
  { destruct He as [[_ [A [B _]]] _]. rewrite Eu in A, B.
    exists (fun t x y => PI ^ 2 * tgv_v nu t x y). split.
    - eapply partial_ext2; [|intros ? ? ?; reflexivity|exact Uxy].
      exact (unique2 _ _ _ _ Ux A).
    - eapply partial_ext2; [|intros ? ? ?; reflexivity|exact Uyx].
      exact (unique2 _ _ _ _ Uy B). }
  assert (Sv : smooth2 (g_v e)).
  { destruct He as [_ [[_ [A [B _]]] _]]. rewrite Ev in A, B.
    exists (fun t x y => PI ^ 2 * tgv_u nu t x y). split.
    - eapply partial_ext2; [|intros ? ? ?; reflexivity|exact Vxy].
      exact (unique2 _ _ _ _ Vx A).
    - eapply partial_ext2; [|intros ? ? ?; reflexivity|exact Vyx].
      exact (unique2 _ _ _ _ Vy B). }
  assert (D : solenoidal2 (d_val (g_u e)) (d_val (g_v e))).
  { rewrite Eu, Ev. eexists. eexists. split; [exact Ux|].
    split; [exact Vy|]. intros; cbv beta; ring. }
  assert (M := momentum_solenoidal2 e He Su Sv D).
  rewrite En, Eu, Ev, Ep in M.
  destruct (M _ _ Px Py) as [Mx My].
  assert (Q : forall a, cos (PI * a) * cos (PI * a)
    = 1 - sin (PI * a) * sin (PI * a)).
  { intro a. assert (H := sin2_cos2 (PI * a)). unfold Rsqr in H. lra. }
  split; intros t x y.
  - rewrite (Mx _ _ _ _ _ Ut Ux Uy Uxx Uyy t x y).
    unfold tgv_u, tgv_v, tgv_ux, tgv_uy, tgv_px, zero2.
    rewrite exp_twice, double_sin.
    set (E := exp _). specialize (Q y).
    replace (- sin (PI * x) * cos (PI * y) * E
      * (- PI * (cos (PI * x) * cos (PI * y) * E)))
      with (PI * sin (PI * x) * cos (PI * x) * E * E
            * (cos (PI * y) * cos (PI * y))) by ring.
    rewrite Q. field.
  - rewrite (My _ _ _ _ _ Vt Vx Vy Vxx Vyy t x y).
    unfold tgv_u, tgv_v, tgv_ux, tgv_uy, tgv_py, zero2.
    rewrite exp_twice, double_sin.
    set (E := exp _). specialize (Q x).
    replace (cos (PI * x) * sin (PI * y) * E
      * - (- PI * (cos (PI * x) * cos (PI * y) * E)))
      with (PI * sin (PI * y) * cos (PI * y) * E * E
            * (cos (PI * x) * cos (PI * x))) by ring.
    rewrite Q. field.
Qed.
End TGV.

(** *** Laplace and Stokes *)

Lemma laplace_case : forall p, exact2 p -> d_val p = la_p ->
  same2 (laplace_f2 p) (fun t x y => - 8 * PI ^ 2 * la_p t x y).
Proof.
  intros p E V t x y. assert (L := laplace2_spec p E). rewrite V in L.
  rewrite (L
    (fun t x y => 2 * PI * (cos (2 * PI * x) * sin (2 * PI * y)))
    (fun t x y => 2 * PI * (sin (2 * PI * x) * cos (2 * PI * y)))
    (fun t x y => - 4 * PI ^ 2 * la_p t x y)
    (fun t x y => - 4 * PI ^ 2 * la_p t x y));
    [ring|unfold la_p; partial2; ring ..].
Qed.

Lemma lap_st2 : is_laplacian2 st2_u (fun t x y => - 8 * PI ^ 2 * st2_u t x y)
  /\ is_laplacian2 st2_v (fun t x y => - 8 * PI ^ 2 * st2_v t x y).
Proof.
  split; intros qx qy qxx qyy Qx Qy Qxx Qyy t x y.
  - rewrite (second2 BX BX st2_u qx
      (fun t x y => - 2 * PI * (sin (2 * PI * x) * sin (2 * PI * y)))
      qxx (fun t x y => - 4 * PI ^ 2 * st2_u t x y) Qx)
      by (first [exact Qxx | unfold st2_u; partial2; ring]).
    rewrite (second2 BY BY st2_u qy
      (fun t x y => 2 * PI * (cos (2 * PI * x) * cos (2 * PI * y)))
      qyy (fun t x y => - 4 * PI ^ 2 * st2_u t x y) Qy)
      by (first [exact Qyy | unfold st2_u; partial2; ring]).
    ring.
  - rewrite (second2 BX BX st2_v qx
      (fun t x y => - 2 * PI * (cos (2 * PI * x) * cos (2 * PI * y)))
      qxx (fun t x y => - 4 * PI ^ 2 * st2_v t x y) Qx)
      by (first [exact Qxx | unfold st2_v; partial2; ring]).
    rewrite (second2 BY BY st2_v qy
      (fun t x y => 2 * PI * (sin (2 * PI * x) * sin (2 * PI * y)))
      qyy (fun t x y => - 4 * PI ^ 2 * st2_v t x y) Qy)
      by (first [exact Qyy | unfold st2_v; partial2; ring]).
    ring.
Qed.

Lemma stokes2_case : forall u v p, exact2 u -> exact2 v -> first2 p ->
  d_val u = st2_u -> d_val v = st2_v -> d_val p = st2_p ->
  same2 (stokes_x2 u p) (fun t x y =>
    (8 * PI ^ 2 + 2 * PI) * st2_u t x y) /\
  same2 (stokes_y2 v p) (fun t x y =>
    (8 * PI ^ 2 - 2 * PI) * st2_v t x y) /\
  solenoidal2 st2_u st2_v.
Proof.
  intros u v p Hu Hv Hp Eu Ev Ep. destruct lap_st2 as [Lu Lv].
  rewrite <- Eu in Lu. rewrite <- Ev in Lv.
  assert (Dx : is_partial2 BX (d_val p) (fun t x y => 2 * PI * st2_u t x y))
    by (rewrite Ep; unfold st2_p, st2_u; partial2; ring).
  assert (Dy : is_partial2 BY (d_val p)
    (fun t x y => - 2 * PI * st2_v t x y))
    by (rewrite Ep; unfold st2_p, st2_v; partial2; ring).
  destruct (stokes2_spec u v p Hu Hv Hp _ _ _ _ Dx Dy Lu Lv) as [A B].
    split; [|split].
    + intros t x y. rewrite (A t x y), Eu. ring.
    + intros t x y. rewrite (B t x y), Ev. ring.
    + exists (fun t x y => - 2 * PI * (sin (2 * PI * x) * sin (2 * PI * y))),
        (fun t x y => 2 * PI * (sin (2 * PI * x) * sin (2 * PI * y))).
      repeat split; unfold st2_u, st2_v; try (partial2; ring).
      intros; ring.
Qed.

(** *** The dipole *)

Definition dp_w (d : dipole) (x y : R) : R :=
  dp_scale d * Rabs (dp_we1 d)
  * ((1 - dp_r1_square d x y / dp_r0 d ^ 2)
     * exp (- dp_r1_square d x y / dp_r0 d ^ 2)
     - (1 - dp_r2_square d x y / dp_r0 d ^ 2)
       * exp (- dp_r2_square d x y / dp_r0 d ^ 2)).

Lemma dipole_partial : forall d, dp_r0 d <> 0 ->
  exists uy vx, is_partial2 BY (dp_u d) uy /\ is_partial2 BX (dp_v d) vx /\
  forall t x y, vx t x y - uy t x y = dp_w d x y.
Proof.
  intros d H.
  exists (fun t x y => dp_scale d * (
     - / 2 * Rabs (dp_we1 d) * (1 - 2 * (y - dp_y1 d) ^ 2 / dp_r0 d ^ 2)
       * exp (- dp_r1_square d x y / dp_r0 d ^ 2)
     + / 2 * Rabs (dp_we1 d) * (1 - 2 * (y - dp_y2 d) ^ 2 / dp_r0 d ^ 2)
       * exp (- dp_r2_square d x y / dp_r0 d ^ 2))),
   (fun t x y => dp_scale d * (
     / 2 * Rabs (dp_we1 d) * (1 - 2 * (x - dp_x1 d) ^ 2 / dp_r0 d ^ 2)
       * exp (- dp_r1_square d x y / dp_r0 d ^ 2)
     - / 2 * Rabs (dp_we1 d) * (1 - 2 * (x - dp_x2 d) ^ 2 / dp_r0 d ^ 2)
       * exp (- dp_r2_square d x y / dp_r0 d ^ 2))).
  split; [|split].
  - unfold dp_u, dp_r1_square, dp_r2_square. cbv zeta.
    partial2; field; exact H.
  - unfold dp_v, dp_r1_square, dp_r2_square. cbv zeta.
    partial2; field; exact H.
  - intros t x y. unfold dp_w.
    set (e1 := exp (- dp_r1_square d x y / dp_r0 d ^ 2)).
    set (e2 := exp (- dp_r2_square d x y / dp_r0 d ^ 2)).
    unfold dp_r1_square, dp_r2_square. field. exact H.
Qed.

Lemma dipole_solenoidal : forall d, dp_r0 d <> 0 ->
  solenoidal2 (dp_u d) (dp_v d).
Proof.
  intros d H.
  exists (fun t x y => dp_scale d * Rabs (dp_we1 d) / dp_r0 d ^ 2 * (
     (x - dp_x1 d) * (y - dp_y1 d)
       * exp (- dp_r1_square d x y / dp_r0 d ^ 2)
     - (x - dp_x2 d) * (y - dp_y2 d)
       * exp (- dp_r2_square d x y / dp_r0 d ^ 2))),
   (fun t x y => - dp_scale d * Rabs (dp_we1 d) / dp_r0 d ^ 2 * (
     (x - dp_x1 d) * (y - dp_y1 d)
       * exp (- dp_r1_square d x y / dp_r0 d ^ 2)
     - (x - dp_x2 d) * (y - dp_y2 d)
       * exp (- dp_r2_square d x y / dp_r0 d ^ 2))).
  split; [|split].
  - unfold dp_u, dp_r1_square, dp_r2_square. cbv zeta.
    partial2; field; exact H.
  - unfold dp_v, dp_r1_square, dp_r2_square. cbv zeta.
    partial2; field; exact H.
  - intros t x y. field. exact H.
Qed.

Lemma make_dipole_spec : forall x1 y1 x2 y2 r0 a b s d,
  make_dipole x1 y1 x2 y2 r0 a b s = Some d ->
  d = mkdipole x1 y1 x2 y2 r0 a (- a) s /\ b = - a.
Proof.
  intros x1 y1 x2 y2 r0 a b s d H. unfold make_dipole in H.
  destruct (Req_EM_T (a + b) 0) as [E|]; [|discriminate].
  injection H as <-. assert (B : b = - a) by lra. rewrite B. split; reflexivity.
Qed.

Lemma dipole_omega : forall x1 y1 x2 y2 r0 a b s d,
  make_dipole x1 y1 x2 y2 r0 a b s = Some d -> r0 <> 0 ->
  (0 <= a -> is_rot2 (dp_u d) (dp_v d) (dp_omega d)) /\
  (a <= 0 -> is_rot2 (dp_u d) (dp_v d) (fun t x y => - dp_omega d t x y)).
Proof.
  intros x1 y1 x2 y2 r0 a b s d H R0.
  destruct (make_dipole_spec _ _ _ _ _ _ _ _ _ H) as [-> ->].
  set (d := mkdipole _ _ _ _ _ _ _ _).
  assert (R1 : dp_r0 d <> 0) by exact R0.
  destruct (dipole_partial d R1) as [uy [vx [Uy [Vx E]]]].
  split; intros A py px Dy Dx t x y;
    rewrite <- (unique2 _ _ _ _ Uy Dy t x y),
      <- (unique2 _ _ _ _ Vx Dx t x y), (E t x y);
    unfold dp_omega, dp_w; cbv zeta; unfold d at 1 2 3 4 5 6 7 8;
    cbn [dp_we1 dp_we2 dp_scale]; cbn [dp_we1 dp_we2 dp_scale].
  - rewrite Rabs_pos_eq by exact A. unfold d. cbn [dp_we1 dp_we2 dp_scale].
    ring.
  - rewrite Rabs_left1 by exact A. unfold d. cbn [dp_we1 dp_we2 dp_scale].
    ring.
Qed.

Lemma dipole_omega_wrong : forall x1 y1 x2 y2 r0 a b s d,
  make_dipole x1 y1 x2 y2 r0 a b s = Some d -> r0 <> 0 ->
  a < 0 -> s <> 0 ->
  (is_rot2 (dp_u d) (dp_v d) (dp_omega d) <->
   forall x y, dp_w d x y = 0).
Proof.
  intros x1 y1 x2 y2 r0 a b s d H R0 A S0.
  destruct (dipole_omega _ _ _ _ _ _ _ _ _ H R0) as [_ N].
  specialize (N (Rlt_le _ _ A)).
  destruct (make_dipole_spec _ _ _ _ _ _ _ _ _ H) as [-> _].
  set (d := mkdipole _ _ _ _ _ _ _ _) in *.
  assert (R1 : dp_r0 d <> 0) by exact R0.
  destruct (dipole_partial d R1) as [uy [vx [Uy [Vx E]]]].
  assert (N' := N _ _ Uy Vx). split.
  - intros P x y. assert (P' := P _ _ Uy Vx 0 x y).
    specialize (N' 0 x y). cbv beta in N', P'.
    rewrite <- (E 0 x y). lra.
  - intros Z py px Dy Dx t x y.
    rewrite <- (unique2 _ _ _ _ Uy Dy t x y),
      <- (unique2 _ _ _ _ Vx Dx t x y), (E t x y), (Z x y).
    specialize (N' t x y). cbv beta in N'. rewrite (E t x y), (Z x y) in N'.
    lra.
Qed.

(** The default dipole turned round. *)
Lemma dipole_turned : exists d,
  make_dipole 0 (/ 10) 0 (- / 10) (/ 10) (-320) 320 1 = Some d /\
  ~ is_rot2 (dp_u d) (dp_v d) (dp_omega d).
Proof.
  eexists. split.
  - unfold make_dipole. destruct (Req_EM_T (-320 + 320) 0) as [|E];
      [reflexivity|]. exfalso. apply E. lra.
  - set (d := mkdipole _ _ _ _ _ _ _ _). intro P.
    assert (M : make_dipole 0 (/ 10) 0 (- / 10) (/ 10) (-320) 320 1 = Some d).
    { unfold make_dipole. destruct (Req_EM_T (-320 + 320) 0) as [|E];
      [reflexivity|]. exfalso. apply E. lra. }
    assert (Z := proj1 (dipole_omega_wrong _ _ _ _ _ _ _ _ _ M
      ltac:(lra) ltac:(lra) ltac:(lra)) P 0 (/ 10)).
    unfold dp_w, dp_r1_square, dp_r2_square, d in Z.
    cbn [dp_x1 dp_x2 dp_y1 dp_y2 dp_r0 dp_we1 dp_scale] in Z.
    rewrite Rabs_left1 in Z by lra.
    replace (- ((0 - 0) ^ 2 + (/ 10 - / 10) ^ 2) / (/ 10) ^ 2) with 0 in Z
      by field.
    replace (((0 - 0) ^ 2 + (/ 10 - / 10) ^ 2) / (/ 10) ^ 2) with 0 in Z
      by field.
    replace (((0 - 0) ^ 2 + (/ 10 - - / 10) ^ 2) / (/ 10) ^ 2) with 4 in Z
      by field.
    rewrite exp_0 in Z.
    assert (P0 := exp_pos (- ((0 - 0) ^ 2 + (/ 10 - - / 10) ^ 2)
                           / (/ 10) ^ 2)). lra.
Qed.

(** *** The outline *)

Lemma rle_spec : forall a b, rle a b = true <-> a <= b.
Proof.
  intros a b. unfold rle. destruct (Rle_dec a b); split; intro;
    try assumption; try reflexivity; try discriminate; contradiction.
Qed.
Lemma rle_false : forall a b, rle a b = false <-> b < a.
Proof.
  intros a b. unfold rle. destruct (Rle_dec a b); split; intro;
    try reflexivity; try discriminate; lra.
Qed.
Lemma req_spec : forall a b, req a b = true <-> a = b.
Proof.
  intros a b. unfold req. destruct (Req_EM_T a b); split; intro;
    try assumption; try reflexivity; try discriminate; contradiction.
Qed.

Lemma side_spec : forall (p : R * R -> bool) (P : R * R -> Prop) ps,
  (forall q, p q = true <-> P q) ->
  (forallb p ps = true <-> Forall P ps).
Proof.
  intros p P ps H. rewrite forallb_forall, Forall_forall.
  split; intros A q I; apply H, A, I.
Qed.

Lemma outline_spec : forall ps, outline_ok ps = true <->
  (Forall (fun q => fst q = -1 /\ -1 <= snd q) ps \/
   Forall (fun q => fst q = 1 /\ -1 <= snd q) ps \/
   Forall (fun q => snd q = -1 /\ -1 <= fst q) ps \/
   Forall (fun q => snd q = 1 /\ -1 <= fst q) ps).
Proof.
  intro ps. unfold outline_ok. rewrite !orb_true_iff.
  rewrite (side_spec (fun '(x, y) => req x (-1) && rle (-1) y)
    (fun q => fst q = -1 /\ -1 <= snd q)).
  2:{ intros [x y]. cbn [fst snd]. rewrite andb_true_iff, req_spec, rle_spec.
      reflexivity. }
  rewrite (side_spec (fun '(x, y) => req x 1 && rle (-1) y)
    (fun q => fst q = 1 /\ -1 <= snd q)).
  2:{ intros [x y]. cbn [fst snd]. rewrite andb_true_iff, req_spec, rle_spec.
      reflexivity. }
  rewrite (side_spec (fun '(x, y) => req y (-1) && rle (-1) x)
    (fun q => snd q = -1 /\ -1 <= fst q)).
  2:{ intros [x y]. cbn [fst snd]. rewrite andb_true_iff, req_spec, rle_spec.
      reflexivity. }
  rewrite (side_spec (fun '(x, y) => req y 1 && rle (-1) x)
    (fun q => snd q = 1 /\ -1 <= fst q)).
  2:{ intros [x y]. cbn [fst snd]. rewrite andb_true_iff, req_spec, rle_spec.
      reflexivity. }
  tauto.
Qed.

(** *** Piecewise functions *)

Lemma place_app : forall A (out : A) l l',
  place out (l ++ l') = place (place out l) l'.
Proof.
  intros A out l l'. revert out. induction l as [|[c v] l IH]; intro out.
  - reflexivity.
  - cbn [place app]. apply IH.
Qed.

Lemma place_none : forall A (out : A) l,
  Forall (fun q => fst q = false) l -> place out l = out.
Proof.
  intros A out l. revert out. induction l as [|[c v] l IH]; intros out H.
  - reflexivity.
  - inversion H as [|? ? H1 H2]; subst. cbn [fst] in H1. subst c.
    cbn [place]. apply IH, H2.
Qed.

Lemma place_last : forall A (out : A) l v r,
  Forall (fun q => fst q = false) r -> place out (l ++ (true, v) :: r) = v.
Proof.
  intros A out l v r H. rewrite place_app. cbn [place]. apply place_none, H.
Qed.

Lemma combine_app : forall A B (a a' : list A) (b b' : list B),
  length a = length b ->
  combine (a ++ a') (b ++ b') = combine a b ++ combine a' b'.
Proof.
  intros A B a. induction a as [|x a IH]; intros a' [|y b] b' H;
    try discriminate; [reflexivity|].
  cbn [combine app]. f_equal. apply IH. injection H as H. exact H.
Qed.

Lemma combine_false : forall A (a : list bool) (b : list A),
  Forall (fun c => c = false) a ->
  Forall (fun q => fst q = false) (combine a b).
Proof.
  intros A a. induction a as [|x a IH]; intros [|y b] H; cbn [combine];
    try constructor; inversion H; subst; [reflexivity|apply IH; assumption].
Qed.

Lemma fold_orb : forall l b, fold_left orb l b = b || existsb (fun c => c) l.
Proof.
  induction l as [|c l IH]; intro b; cbn [fold_left existsb].
  - symmetry. apply orb_false_r.
  - rewrite IH. rewrite orb_assoc. reflexivity.
Qed.

Lemma piece_last : forall A (fill : A) c1 c2 f1 v f2,
  length c1 = length f1 -> Forall (fun c => c = false) c2 ->
  length c2 = length f2 \/ S (length c2) = length f2 ->
  genpiecewise fill (c1 ++ true :: c2) (f1 ++ v :: f2) = Some v.
Proof.
  intros A fill c1 c2 f1 v f2 H1 H2 H3. unfold genpiecewise.
  rewrite !app_length. cbn [length].
  destruct H3 as [H3|H3].
  - replace (Nat.eqb (length c1 + S (length c2)) (length f1 + S (length f2)))
      with true by (symmetry; apply Nat.eqb_eq; lia).
    destruct (c1 ++ true :: c2) as [|c0 cs] eqn:E.
    { destruct c1; discriminate. }
    rewrite <- E. f_equal. rewrite combine_app by exact H1.
    cbn [combine]. apply place_last, combine_false, H2.
  - replace (Nat.eqb (length c1 + S (length c2)) (length f1 + S (length f2)))
      with false by (symmetry; apply Nat.eqb_neq; lia).
    replace (Nat.eqb (S (length c1 + S (length c2)))
      (length f1 + S (length f2)))
      with true by (symmetry; apply Nat.eqb_eq; lia).
    f_equal. rewrite <- app_assoc. cbn [app].
    rewrite combine_app by exact H1.
    cbn [combine]. apply place_last, combine_false.
    apply Forall_app. split; [exact H2|]. constructor; [|constructor].
    rewrite fold_orb, existsb_app. cbn [existsb].
    rewrite orb_true_r. reflexivity.
Qed.

Lemma piece_default : forall A (fill : A) cs fs d,
  length cs = length fs -> Forall (fun c => c = false) cs ->
  genpiecewise fill cs (fs ++ [d]) = Some d /\
  (cs <> [] -> genpiecewise fill cs fs = Some fill).
Proof.
  intros A fill cs fs d H1 H2. unfold genpiecewise.
  rewrite !app_length. cbn [length].
  replace (Nat.eqb (length cs) (length fs + 1))
    with false by (symmetry; apply Nat.eqb_neq; lia).
  replace (Nat.eqb (S (length cs)) (length fs + 1))
    with true by (symmetry; apply Nat.eqb_eq; lia).
  replace (Nat.eqb (length cs) (length fs))
    with true by (symmetry; apply Nat.eqb_eq; lia).
  split.
  - f_equal. rewrite combine_app by exact H1. cbn [combine].
    replace (fold_left orb cs false) with false.
    + apply place_last. constructor.
    + rewrite fold_orb. symmetry. cbn [orb].
      clear - H2. induction H2 as [|c l E _ IH]; [reflexivity|].
      cbn [existsb]. rewrite E, IH. reflexivity.
  - intro N. destruct cs as [|c cs]; [contradiction|]. f_equal.
    apply place_none, combine_false, H2.
Qed.

Lemma piece_none : forall A (fill : A) cs fs,
  genpiecewise fill cs fs = None <->
  (cs = [] /\ fs = []) \/
  (length fs <> length cs /\ length fs <> S (length cs)).
Proof.
  intros A fill cs fs. unfold genpiecewise.
  destruct (Nat.eqb (length cs) (length fs)) eqn:E.
  - apply Nat.eqb_eq in E. destruct cs as [|c cs].
    + destruct fs; [|discriminate]. split; intro; [left; auto|reflexivity].
    + split; [discriminate|]. intros [[H _]|[H _]]; [discriminate|]. lia.
  - apply Nat.eqb_neq in E.
    destruct (Nat.eqb (S (length cs)) (length fs)) eqn:E'.
    + apply Nat.eqb_eq in E'. split; [discriminate|].
      intros [[-> ->]|[_ H]]; [cbn in E; lia|lia].
    + apply Nat.eqb_neq in E'. split; [intros _; right; lia|reflexivity].
Qed.

(** Two conditions, one of which holds. *)
Lemma piece_two : forall A (fill a b : A) (c : bool),
  genpiecewise fill [c; negb c] [a; b] = Some (if c then a else b).
Proof. intros A fill a b [|]; reflexivity. Qed.

(** *** The shear layer *)

Lemma shear_value : forall delta t x y,
  shear_u delta t x y = tanh ((PI / 2 - Rabs (y - PI)) / delta).
Proof.
  intros delta t x y. unfold shear_u. rewrite piece_two.
  cbn [override]. destruct (rle y PI) eqn:E.
  - apply rle_spec in E. rewrite Rabs_left1 by lra. f_equal. f_equal. lra.
  - apply rle_false in E. rewrite Rabs_pos_eq by lra. f_equal. f_equal. lra.
Qed.

Lemma tanh_continuous : continuity tanh.
Proof.
  intro x. unfold tanh. apply (continuity_pt_div sinh cosh x).
  - apply derivable_continuous_pt, derivable_pt_sinh.
  - apply derivable_continuous_pt, derivable_pt_cosh.
  - unfold cosh. assert (A := exp_pos x). assert (B := exp_pos (- x)). lra.
Qed.

Lemma shear_continuous : forall delta t x,
  continuity (fun y => shear_u delta t x y).
Proof.
  intros delta t x y.
  assert (C : continuity_pt (fun y => tanh ((PI / 2 - Rabs (y - PI))
    * / delta)) y).
  { apply (continuity_pt_comp (fun y => (PI / 2 - Rabs (y - PI)) * / delta)
      tanh).
    - apply (continuity_pt_mult (fun y => PI / 2 - Rabs (y - PI))
        (fun _ => / delta)).
      + apply (continuity_pt_minus (fun _ => PI / 2)
          (fun y => Rabs (y - PI))).
        * apply continuity_pt_const. intros ? ?. reflexivity.
        * apply (continuity_pt_comp (fun y => y - PI) Rabs).
          -- apply (continuity_pt_minus (fun y => y) (fun _ => PI)).
             ++ apply derivable_continuous_pt, derivable_pt_id.
             ++ apply continuity_pt_const. intros ? ?. reflexivity.
          -- apply Rcontinuity_abs.
      + apply continuity_pt_const. intros ? ?. reflexivity.
    - apply tanh_continuous. }
  intros eps Heps. destruct (C eps Heps) as [al [Ha H]].
  exists al. split; [exact Ha|]. intros z Hz. rewrite !shear_value.
  apply (H z Hz).
Qed.

Lemma shear_solenoidal : forall delta eps,
  solenoidal2 (shear_u delta) (shear_v eps).
Proof.
  intros delta eps. exists zero2, zero2. split; [|split].
  - intros t x y. cbn [line2 coordinate2].
    apply (lim_ext (fun _ => shear_u delta t x y)); [reflexivity|].
    apply derivable_pt_lim_const.
  - unfold shear_v, zero2. partial2; ring.
  - intros; unfold zero2; ring.
Qed.

Lemma shear_periodic : forall delta eps t x y,
  shear_u delta t (x + 2 * PI) y = shear_u delta t x y /\
  shear_u delta t x 0 = shear_u delta t x (2 * PI) /\
  shear_v eps t (x + 2 * PI) y = shear_v eps t x y.
Proof.
  intros delta eps t x y. rewrite !shear_value.
  split; [reflexivity|]. split.
  - f_equal. f_equal. f_equal.
    assert (P := PI_RGT_0). rewrite Rabs_left1, Rabs_pos_eq by lra. lra.
  - unfold shear_v. f_equal.
    rewrite sin_plus, sin_2PI, cos_2PI. ring.
Qed.

(** *** The channel *)

Lemma channel_spec : forall h r li lo c, make_channel h r li lo = Some c <->
  (0 < h /\ 0 < r /\ r < h / 2 /\ c = mkchannel h r li lo).
Proof.
  intros h r li lo c. unfold make_channel. split.
  - destruct (is_positive h && is_positive r && is_positive r
      && is_positive r && negb (rle (h / 2) r)) eqn:E; [|discriminate].
    intro H. injection H as <-. rewrite !andb_true_iff in E.
    destruct E as [[[[A B] _] _] C]. apply is_positive_spec in A, B.
    apply negb_true_iff, rle_false in C. auto.
  - intros [A [B [C ->]]].
    apply is_positive_spec in A, B. rewrite A, B.
    replace (rle (h / 2) r) with false
      by (symmetry; apply rle_false; exact C). reflexivity.
Qed.

Lemma fc_value : forall c inlet t x y,
  fc_u c inlet t x y
  = if rle (- (ch_r c + ch_li c)) x then 0 else inlet.
Proof.
  intros c inlet t x y. unfold fc_u.
  destruct (rle (- (ch_r c + ch_li c)) x) eqn:E; cbn [negb]; cbn;
    try (rewrite ?E); unfold genpiecewise, override; cbn; ring.
Qed.

Lemma channel_velocity : forall h r li lo c inlet,
  make_channel h r li lo = Some c -> forall t y,
  fc_u c inlet t (- h / 2 - li) y = inlet /\
  (forall x, - (r + li) <= x -> fc_u c inlet t x y = 0) /\
  (forall x, x < - (r + li) -> fc_u c inlet t x y = inlet).
Proof.
  intros h r li lo c inlet H t y.
  apply channel_spec in H. destruct H as [A [B [C ->]]].
  split; [|split].
  - rewrite fc_value. cbn [ch_r ch_li].
    replace (rle (- (r + li)) (- h / 2 - li)) with false
      by (symmetry; apply rle_false; lra). reflexivity.
  - intros x X. rewrite fc_value. cbn [ch_r ch_li].
    replace (rle (- (r + li)) x) with true
      by (symmetry; apply rle_spec; lra). reflexivity.
  - intros x X. rewrite fc_value. cbn [ch_r ch_li].
    replace (rle (- (r + li)) x) with false
      by (symmetry; apply rle_false; lra). reflexivity.
Qed.

(** Points of the wall strictly behind the inlet. *)
Lemma channel_wall : forall h r li lo c inlet,
  make_channel h r li lo = Some c -> 0 < li -> 0 < lo -> inlet <> 0 ->
  exists x, - h / 2 - li < x < h / 2 + lo /\
  forall t, fc_u c inlet t x (h / 2) <> 0.
Proof.
  intros h r li lo c inlet H L O N.
  destruct (proj1 (channel_spec _ _ _ _ _) H) as [A [B [C _]]].
  exists ((- h / 2 - li - (r + li)) / 2). split; [lra|].
  intro t. destruct (channel_velocity _ _ _ _ _ inlet H t (h / 2))
    as [_ [_ V]].
  rewrite V by lra. exact N.
Qed.

Lemma dipole_derivatives : forall d, dp_r0 d <> 0 ->
  solenoidal2 (dp_u d) (dp_v d) /\
  exists uy vx, is_partial2 BY (dp_u d) uy /\ is_partial2 BX (dp_v d) vx.
Proof.
  intros d H. split; [apply dipole_solenoidal, H|].
  destruct (dipole_partial d H) as [uy [vx [A [B _]]]].
  exists uy, vx. split; assumption.
Qed.

Lemma outline_outside : outline_ok [(-1, 0); (-1, 5)] = true.
Proof.
  apply outline_spec. left.
  repeat constructor; cbn [fst snd]; lra.
Qed.

Lemma shear_sides : forall delta t x y,
  (y <= PI -> shear_u delta t x y = tanh ((y - PI / 2) / delta)) /\
  (PI < y -> shear_u delta t x y = tanh ((3 * PI / 2 - y) / delta)).
Proof.
  intros delta t x y. unfold shear_u. rewrite piece_two. cbn [override].
  split; intro H.
  - replace (rle y PI) with true by (symmetry; apply rle_spec; exact H).
    reflexivity.
  - replace (rle y PI) with false by (symmetry; apply rle_false; exact H).
    reflexivity.
Qed.

Lemma shear_not_constant : shear_u 1 0 0 0 < shear_u 1 0 0 PI.
Proof.
  assert (P := PI_RGT_0).
  destruct (shear_sides 1 0 0 0) as [A _].
  destruct (shear_sides 1 0 0 PI) as [B _].
  rewrite A, B by lra.
  assert (T : forall a, 0 < a -> 0 < tanh a).
  { intros a Ha. unfold tanh, sinh, cosh. assert (E := exp_pos a).
    assert (E' := exp_pos (- a)). assert (exp (- a) < exp a)
      by (apply exp_increasing; lra).
    apply Rdiv_lt_0_compat; lra. }
  assert (O : forall a, tanh (- a) = - tanh a).
  { intro a. unfold tanh, sinh, cosh. rewrite Ropp_involutive.
    assert (E := exp_pos a). assert (E' := exp_pos (- a)). field. lra. }
  replace ((0 - PI / 2) / 1) with (- (PI / 2)) by field.
  replace ((PI - PI / 2) / 1) with (PI / 2) by field.
  rewrite O. assert (Q := T (PI / 2)). lra.
Qed.
