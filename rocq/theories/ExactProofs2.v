(** Proofs about the MHD exact solutions with numerical derivatives. *)
From Coq Require Import Reals Lra Bool.
From Verif Require Import FieldModel FieldSpec FieldProofs FieldProofs2 ExactModel
  ExactSpec ExactCaseModel ExactProofs.
Open Scope R_scope.

Lemma central_half : forall f x,
  central f x millionth = 500000 * (f (x + millionth) - f (x - millionth)).
Proof. intros f x. unfold central, millionth. field. Qed.

Lemma diff3_ext : forall a f g, same3 f g -> same3 (diff3 a f) (diff3 a g).
Proof.
  intros a f g E t x y z. unfold diff3. rewrite !central_half.
  destruct a; cbn [line3 coordinate3]; rewrite !E; reflexivity.
Qed.

Lemma diff3_plus : forall a f g t x y z,
  diff3 a (fun t x y z => f t x y z + g t x y z) t x y z
  = diff3 a f t x y z + diff3 a g t x y z.
Proof.
  intros a f g t x y z. unfold diff3. rewrite !central_half.
  destruct a; cbn [line3 coordinate3]; ring.
Qed.

Lemma diff3_minus : forall a f g t x y z,
  diff3 a (fun t x y z => f t x y z - g t x y z) t x y z
  = diff3 a f t x y z - diff3 a g t x y z.
Proof.
  intros a f g t x y z. unfold diff3. rewrite !central_half.
  destruct a; cbn [line3 coordinate3]; ring.
Qed.

Lemma partial3_ext : forall a f g, same3 f g ->
  same3 (scipy_partial3 f a) (diff3 a g).
Proof.
  intros a f g E t x y z. rewrite partial3_diff. apply diff3_ext, E.
Qed.

Lemma numerical_diff : forall c, numerical3 c ->
  same3 (c_t c) (diff3 AT (c_val c)) /\
  same3 (c_x c) (diff3 AX (c_val c)) /\
  same3 (c_y c) (diff3 AY (c_val c)) /\
  same3 (c_z c) (diff3 AZ (c_val c)) /\
  same3 (c_xx c) (diff3 AX (diff3 AX (c_val c))) /\
  same3 (c_yy c) (diff3 AY (diff3 AY (c_val c))) /\
  same3 (c_zz c) (diff3 AZ (diff3 AZ (c_val c))).
Proof.
  intros c E. rewrite E.
  cbn [component3 none3 override o_t o_x o_y o_z o_xx o_yy o_zz
       c_t c_x c_y c_z c_xx c_yy c_zz c_val].
  repeat split; try apply partial3_diff;
    apply partial3_ext, partial3_diff.
Qed.

(** Differences of a difference of two fields. *)
Lemma partial3_sub : forall a b c f g p q,
  same3 f (diff3 b p) -> same3 g (diff3 c q) ->
  forall t x y z,
  scipy_partial3 (fun t x y z => f t x y z - g t x y z) a t x y z
  = diff3 a (diff3 b p) t x y z - diff3 a (diff3 c q) t x y z.
Proof.
  intros a b c f g p q Ef Eg t x y z. rewrite partial3_diff.
  rewrite (diff3_minus a f g).
  rewrite (diff3_ext a _ _ Ef), (diff3_ext a _ _ Eg). reflexivity.
Qed.

Lemma div_diff : forall e, numerical_flow3 e ->
  forall a, same3 (diff3 a (div_velocity3 e)) (fun t x y z =>
    diff3 a (diff3 AX (c_val (f_u e))) t x y z
    + diff3 a (diff3 AY (c_val (f_v e))) t x y z
    + diff3 a (diff3 AZ (c_val (f_w e))) t x y z).
Proof.
  intros e [U [V W]] a t x y z.
  destruct (numerical_diff _ U) as [_ [Ux _]].
  destruct (numerical_diff _ V) as [_ [_ [Vy _]]].
  destruct (numerical_diff _ W) as [_ [_ [_ [Wz _]]]].
  unfold div_velocity3.
  rewrite (diff3_plus a (fun t x y z => c_x (f_u e) t x y z
    + c_y (f_v e) t x y z) (c_z (f_w e))).
  rewrite (diff3_plus a (c_x (f_u e)) (c_y (f_v e))).
  rewrite (diff3_ext a _ _ Ux), (diff3_ext a _ _ Vy),
    (diff3_ext a _ _ Wz). reflexivity.
Qed.

Lemma curl_omega_numerical : forall e, numerical_flow3 e ->
  same3 (curl_omega_x e) (fun t x y z =>
    diff3 AX (div_velocity3 e) t x y z - laplace3 (f_u e) t x y z) /\
  same3 (curl_omega_y e) (fun t x y z =>
    diff3 AY (div_velocity3 e) t x y z - laplace3 (f_v e) t x y z) /\
  same3 (curl_omega_z e) (fun t x y z =>
    diff3 AZ (div_velocity3 e) t x y z - laplace3 (f_w e) t x y z) /\
  same3 (div_omega e) zero3.
Proof.
  intros e N. pose proof (div_diff e N) as D. destruct N as [U [V W]].
  destruct (numerical_diff _ U) as [_ [Ux [Uy [Uz [Uxx [Uyy Uzz]]]]]].
  destruct (numerical_diff _ V) as [_ [Vx [Vy [Vz [Vxx [Vyy Vzz]]]]]].
  destruct (numerical_diff _ W) as [_ [Wx [Wy [Wz [Wxx [Wyy Wzz]]]]]].
  pose proof (fun a t x y z =>
    partial3_sub a AY AZ _ _ _ _ Wy Vz t x y z) as Ox.
  pose proof (fun a t x y z =>
    partial3_sub a AZ AX _ _ _ _ Uz Wx t x y z) as Oy.
  pose proof (fun a t x y z =>
    partial3_sub a AX AY _ _ _ _ Vx Uy t x y z) as Oz.
  fold (omega_x3 e) in Ox. fold (omega_y3 e) in Oy. fold (omega_z3 e) in Oz.
  repeat split; intros t x y z;
    unfold curl_omega_x, curl_omega_y, curl_omega_z, div_omega, laplace3,
      zero3;
    rewrite ?D, ?Ox, ?Oy, ?Oz, ?Uxx, ?Uyy, ?Uzz, ?Vxx, ?Vyy, ?Vzz,
      ?Wxx, ?Wyy, ?Wzz.
  - rewrite (diff3_comm AX AY (c_val (f_v e))),
      (diff3_comm AX AZ (c_val (f_w e))). ring.
  - rewrite (diff3_comm AY AX (c_val (f_u e))),
      (diff3_comm AY AZ (c_val (f_w e))). ring.
  - rewrite (diff3_comm AZ AX (c_val (f_u e))),
      (diff3_comm AZ AY (c_val (f_v e))). ring.
  - rewrite (diff3_comm AX AY (c_val (f_w e))),
      (diff3_comm AX AZ (c_val (f_v e))),
      (diff3_comm AY AZ (c_val (f_u e))). ring.
Qed.

Lemma documented_mhd : forall m, numerical_flow3 (m_flow m) ->
  same3 (documented_x m) (fun t x y z => mhd_x m t x y z
    + f_nu (m_flow m) * diff3 AX (div_velocity3 (m_flow m)) t x y z) /\
  same3 (documented_y m) (fun t x y z => mhd_y m t x y z
    + f_nu (m_flow m) * diff3 AY (div_velocity3 (m_flow m)) t x y z) /\
  same3 (documented_z m) (fun t x y z => mhd_z m t x y z
    + f_nu (m_flow m) * diff3 AZ (div_velocity3 (m_flow m)) t x y z).
Proof.
  intros m N. destruct (curl_omega_numerical _ N) as [Cx [Cy [Cz _]]].
  destruct N as [U [V W]].
  destruct (numerical_diff _ U) as [Ut _].
  destruct (numerical_diff _ V) as [Vt _].
  destruct (numerical_diff _ W) as [Wt _].
  repeat split; intros t x y z;
    unfold documented_x, documented_y, documented_z, mhd_x, mhd_y, mhd_z;
    cbv zeta; rewrite ?Cx, ?Cy, ?Cz, ?Ut, ?Vt, ?Wt; ring.
Qed.

Lemma electric_source : forall m,
  numerical3 (m_bx m) -> numerical3 (m_by m) -> numerical3 (m_bz m) ->
  same3 (fun t x y z => diff3 AX (r_x m) t x y z + diff3 AY (r_y m) t x y z
                        + diff3 AZ (r_z m) t x y z)
        (diff3 AT (div_b m)).
Proof.
  intros m Bx By Bz t x y z.
  destruct (numerical_diff _ Bx) as [Xt [Xx _]].
  destruct (numerical_diff _ By) as [Yt [_ [Yy _]]].
  destruct (numerical_diff _ Bz) as [Zt [_ [_ [Zz _]]]].
  assert (C : forall a b c f g,
    same3 (diff3 a (fun t x y z => scipy_partial3 f b t x y z
                                   - scipy_partial3 g c t x y z))
      (fun t x y z => diff3 a (diff3 b f) t x y z
                      - diff3 a (diff3 c g) t x y z)).
  { intros a b c f g s p q r.
    rewrite (diff3_minus a (scipy_partial3 f b) (scipy_partial3 g c)).
    rewrite (diff3_ext a _ _ (partial3_diff f b)),
      (diff3_ext a _ _ (partial3_diff g c)). reflexivity. }
  unfold r_x, r_y, r_z.
  rewrite (diff3_plus AX (c_t (m_bx m)) (curl_e_x m)),
    (diff3_plus AY (c_t (m_by m)) (curl_e_y m)),
    (diff3_plus AZ (c_t (m_bz m)) (curl_e_z m)).
  unfold curl_e_x, curl_e_y, curl_e_z. rewrite !C.
  unfold div_b.
  rewrite (diff3_plus AT (fun t x y z => c_x (m_bx m) t x y z
    + c_y (m_by m) t x y z) (c_z (m_bz m))).
  rewrite (diff3_plus AT (c_x (m_bx m)) (c_y (m_by m))).
  rewrite (diff3_ext AT _ _ Xx), (diff3_ext AT _ _ Yy),
    (diff3_ext AT _ _ Zz).
  rewrite (diff3_ext AX _ _ Xt), (diff3_ext AY _ _ Yt),
    (diff3_ext AZ _ _ Zt).
  rewrite (diff3_comm AT AX (c_val (m_bx m))),
    (diff3_comm AT AY (c_val (m_by m))),
    (diff3_comm AT AZ (c_val (m_bz m))).
  rewrite (diff3_comm AX AY (e_z m)), (diff3_comm AX AZ (e_y m)),
    (diff3_comm AY AZ (e_x m)). ring.
Qed.

Lemma is_positive_spec : forall r, is_positive r = true <-> 0 < r.
Proof.
  intros r. unfold is_positive. destruct (Rlt_dec 0 r); split; intro;
    try assumption; try reflexivity; try discriminate; contradiction.
Qed.

Lemma one_over_spec : forall r,
  (exists v, one_over r = Some v) <->
  (r = Infty \/ exists a, r = Number a /\ 0 < a).
Proof.
  intros [a|]; cbn [one_over].
  - destruct (is_positive a) eqn:E; split.
    + intros _. right. exists a. split; [reflexivity|].
      apply is_positive_spec, E.
    + intros _. eexists. reflexivity.
    + intros [v Hv]. discriminate.
    + intros [H|[b [H P]]]; [discriminate|]. injection H as <-.
      apply is_positive_spec in P. congruence.
  - split; [left; reflexivity|]. intros _. eexists. reflexivity.
Qed.

Lemma make_mhd_spec : forall rf rm c u v w p bx by_ bz,
  (exists m, make_mhd rf rm c u v w p bx by_ bz = Some m) <->
  (valid_reynolds rf /\ valid_reynolds rm).
Proof.
  intros rf rm c u v w p bx by_ bz. unfold make_mhd, valid_reynolds.
  rewrite <- (one_over_spec rf), <- (one_over_spec rm).
  destruct (one_over rf) as [f|]; destruct (one_over rm) as [m|]; split;
    try (intros [? H]; discriminate H);
    try (intros [[? H] [? H']]; discriminate).
  - intros _. split; eexists; reflexivity.
  - intros _. eexists. reflexivity.
Qed.

(** *** AS1 *)

Lemma as1_wrong : forall m,
  as1 (Number 10000) (Number 10000) 1 = Some m ->
  documented_x m 0 (/ 4) (/ 2) (/ 2) <> mhd_x m 0 (/ 4) (/ 2) (/ 2).
Proof.
  intros m H. unfold as1, make_mhd, one_over in H.
  replace (is_positive 10000) with true in H
    by (symmetry; apply is_positive_spec; lra).
  injection H as <-.
  set (m := mkmhd _ _ _ _ _ _).
  assert (N : numerical_flow3 (m_flow m))
    by (repeat split; reflexivity).
  destruct (documented_mhd m N) as [D _]. rewrite D.
  rewrite (div_diff _ N AX). unfold m. cbn [m_flow f_nu f_u f_v f_w].
  unfold as1_U, as1_V, as1_W. cbn [component3 c_val].
  set (X := mhd_x _ _ _ _ _). intro E.
  assert (E' : diff3 AX (diff3 AX as1_u) 0 (/ 4) (/ 2) (/ 2)
    + diff3 AX (diff3 AY as1_v) 0 (/ 4) (/ 2) (/ 2)
    + diff3 AX (diff3 AZ as1_w) 0 (/ 4) (/ 2) (/ 2) = 0) by lra.
  clear - E'. unfold diff3 in E'. cbn [line3 coordinate3] in E'.
  repeat rewrite central_half in E'.
  unfold as1_u, as1_v, as1_w, as1_g1, as1_g2, as1_g3, as1_h, as1_hp,
    millionth in E'.
  lra.
Qed.
