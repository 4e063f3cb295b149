(** Proofs about particular exact solutions. *)
From Coq Require Import Reals Lra.
From Verif Require Import FieldModel FieldSpec FieldProofs FieldProofs2
  ExactModel ExactSpec ExactCaseModel ExactProofs ExactProofs2 ExactProofs3.
Open Scope R_scope.

Ltac open3 :=
  cbn [component3 override o_t o_x o_y o_z o_xx o_yy o_zz
       c_val c_t c_x c_y c_z c_xx c_yy c_zz].

Ltac partial3 :=
  let t := fresh "t" in let x := fresh "x" in let y := fresh "y" in
  let z := fresh "z" in
  intros t x y z; cbn [line3 coordinate3]; derive.

Lemma diss_exact : forall nu, exact_flow3 (diss nu).
Proof.
  intro nu. unfold exact_flow3, exact3, first3, diss.
  cbn [f_u f_v f_w f_p].
  unfold diss_U, diss_V, diss_W, diss_P. open3.
  unfold nil3, nily3, diss_p, diss_px.
  repeat split; partial3; ring.
Qed.

Lemma modi_exact : forall nu, exact_flow3 (modi nu).
Proof.
  intro nu. unfold exact_flow3, exact3, first3, modi.
  cbn [f_u f_v f_w f_p].
  unfold modi_U, modi_V, modi_W, modi_P. open3.
  unfold nil3, nily3, modi_p, modi_px.
  repeat split; partial3; ring.
Qed.

Lemma diss_smooth : smooth3 diss_U /\ smooth3 diss_V /\ smooth3 diss_W.
Proof.
  unfold smooth3, diss_U, diss_V, diss_W. open3. unfold nil3, nily3.
  repeat split; exists zero3, zero3, zero3; unfold zero3;
    repeat split; partial3; ring.
Qed.

Lemma modi_smooth : smooth3 modi_U /\ smooth3 modi_V /\ smooth3 modi_W.
Proof.
  unfold smooth3, modi_U, modi_V, modi_W. open3. unfold nil3, nily3.
  repeat split; exists zero3, zero3, zero3; unfold zero3;
    repeat split; partial3; ring.
Qed.

Lemma tgv1_right : forall L V0, L <> 0 ->
  first3 (tgv1_U L V0) /\ first3 (tgv1_V L V0) /\ first3 tgv1_W.
Proof.
  intros L V0 HL. unfold first3, tgv1_U, tgv1_V, tgv1_W. open3. unfold nil3.
  repeat split; partial3; field; exact HL.
Qed.

Lemma solenoidal_by : forall u v w ux vy wz,
  is_partial3 AX u ux -> is_partial3 AY v vy -> is_partial3 AZ w wz ->
  (forall t x y z, ux t x y z + vy t x y z + wz t x y z = 0) ->
  solenoidal3 u v w.
Proof.
  intros u v w ux vy wz A B C D. exists ux, vy, wz. repeat split; assumption.
Qed.

Lemma diss_solenoidal :
  solenoidal3 (c_val diss_U) (c_val diss_V) (c_val diss_W).
Proof.
  apply (solenoidal_by _ _ _ zero3 zero3 zero3);
    unfold zero3, diss_U, diss_V, diss_W; open3; try (partial3; ring).
  intros; ring.
Qed.

Lemma modi_solenoidal :
  solenoidal3 (c_val modi_U) (c_val modi_V) (c_val modi_W).
Proof.
  apply (solenoidal_by _ _ _ zero3 zero3 zero3);
    unfold zero3, modi_U, modi_V, modi_W; open3; try (partial3; ring).
  intros; ring.
Qed.

Lemma cons_solenoidal : solenoidal3 cons_u cons_v cons_w.
Proof.
  apply (solenoidal_by _ _ _ zero3 zero3 zero3);
    unfold zero3, cons_u, cons_v, cons_w; try (partial3; ring).
  intros; ring.
Qed.

Lemma tgv1_solenoidal : forall L V0, L <> 0 ->
  solenoidal3 (c_val (tgv1_U L V0)) (c_val (tgv1_V L V0)) (c_val tgv1_W).
Proof.
  intros L V0 HL. destruct (tgv1_right L V0 HL) as [[A _] [[_ [B _]]
    [_ [_ C]]]].
  apply (solenoidal_by _ _ _ _ _ _ A B C). intros t x y z.
  unfold tgv1_U, tgv1_V, tgv1_W. open3. unfold nil3. ring.
Qed.

Lemma as2_solenoidal : solenoidal3 as2_u as2_v as2_w /\
  solenoidal3 as2_bx as2_by as2_bz.
Proof.
  split.
  - apply (solenoidal_by _ _ _
      (fun t x y z => cos x * cos y * cos z * exp (t / PI))
      (fun t x y z => cos x * cos y * cos z * exp (t / PI))
      (fun t x y z => -2 * cos x * cos y * cos z * exp (t / PI)));
      unfold as2_u, as2_v, as2_w; try (partial3; ring). intros; ring.
  - apply (solenoidal_by _ _ _
      (fun t x y z => - sin x * cos y * cos z * exp (t / PI))
      (fun t x y z => sin x * cos y * cos z * exp (t / PI)) zero3);
      unfold as2_bx, as2_by, as2_bz, zero3; try (partial3; ring).
    intros; ring.
Qed.

Lemma st_solenoidal : solenoidal3 st_u st_v st_w.
Proof.
  apply (solenoidal_by _ _ _
    (fun t x y z => - 2 * PI * sin (2 * PI * x) * sin (2 * PI * y)
                    * sin (2 * PI * z))
    (fun t x y z => - 2 * PI * sin (2 * PI * x) * sin (2 * PI * y)
                    * sin (2 * PI * z))
    (fun t x y z => 4 * PI * sin (2 * PI * x) * sin (2 * PI * y)
                    * sin (2 * PI * z)));
    unfold st_u, st_v, st_w; try (partial3; ring). intros; ring.
Qed.

(** *** MHD: the numerical divergences are zero *)

Ltac differences :=
  unfold diff3; cbn [line3 coordinate3]; repeat rewrite central_half;
  rewrite ?sin_plus, ?sin_minus, ?cos_plus, ?cos_minus.

Lemma as2_div :
  same3 (fun t x y z => diff3 AX as2_u t x y z + diff3 AY as2_v t x y z
                        + diff3 AZ as2_w t x y z) zero3 /\
  same3 (fun t x y z => diff3 AX as2_bx t x y z + diff3 AY as2_by t x y z
                        + diff3 AZ as2_bz t x y z) zero3.
Proof.
  split; intros t x y z; unfold zero3, as2_u, as2_v, as2_w, as2_bx, as2_by,
    as2_bz; differences; ring.
Qed.

Lemma as3_div :
  same3 (fun t x y z => diff3 AX as3_u t x y z + diff3 AY as3_v t x y z
                        + diff3 AZ as3_w t x y z) zero3 /\
  same3 (fun t x y z => diff3 AX as3_bx t x y z + diff3 AY as3_by t x y z
                        + diff3 AZ as3_bz t x y z) zero3.
Proof.
  split; intros t x y z; unfold zero3, as3_u, as3_v, as3_w, as3_bx, as3_by,
    as3_bz; differences; ring.
Qed.

Lemma msc_div :
  same3 (fun t x y z => diff3 AX cons_u t x y z + diff3 AY cons_v t x y z
                        + diff3 AZ cons_w t x y z) zero3.
Proof.
  intros t x y z; unfold zero3, cons_u, cons_v, cons_w; differences; ring.
Qed.

Lemma numerical_component : forall f, numerical3 (component3 f none3).
Proof. intro f. reflexivity. Qed.

(** A solution built from plain components. *)
Lemma plain_mhd : forall rf rm c u v w p bx by_ bz m,
  make_mhd rf rm c (component3 u none3) (component3 v none3)
    (component3 w none3) p (component3 bx none3)
    (component3 by_ none3) (component3 bz none3) = Some m ->
  same3 (fun t x y z => diff3 AX u t x y z + diff3 AY v t x y z
                        + diff3 AZ w t x y z) zero3 ->
  same3 (fun t x y z => diff3 AX bx t x y z + diff3 AY by_ t x y z
                        + diff3 AZ bz t x y z) zero3 ->
  same3 (div_velocity3 (m_flow m)) zero3 /\ same3 (div_b m) zero3 /\
  same3 (documented_x m) (mhd_x m) /\ same3 (documented_y m) (mhd_y m) /\
  same3 (documented_z m) (mhd_z m) /\
  same3 (fun t x y z => diff3 AX (r_x m) t x y z + diff3 AY (r_y m) t x y z
                        + diff3 AZ (r_z m) t x y z) zero3.
Proof.
  intros rf rm c u v w p bx by_ bz m H Du Db. unfold make_mhd in H.
  destruct (one_over rf) as [f|]; [|discriminate].
  destruct (one_over rm) as [g|]; [|discriminate].
  injection H as <-. set (m := mkmhd _ _ _ _ _ _).
  assert (N : numerical_flow3 (m_flow m)) by (repeat split; reflexivity).
  assert (Z : same3 (div_velocity3 (m_flow m)) zero3).
  { intros t x y z. rewrite <- (Du t x y z). unfold div_velocity3, m.
    cbn [m_flow f_u f_v f_w]. open3. cbn [none3 override o_x o_y o_z].
    rewrite !(partial3_diff _ _ t x y z). reflexivity. }
  assert (Zb : same3 (div_b m) zero3).
  { intros t x y z. rewrite <- (Db t x y z). unfold div_b, m.
    cbn [m_bx m_by m_bz]. open3. cbn [none3 override o_x o_y o_z].
    rewrite !(partial3_diff _ _ t x y z). reflexivity. }
  assert (D0 : forall a, same3 (diff3 a zero3) zero3).
  { intros a t x y z. unfold diff3, zero3. rewrite central_half.
    destruct a; cbn [line3]; ring. }
  destruct (documented_mhd m N) as [Dx [Dy Dz]].
  split; [exact Z|]. split; [exact Zb|].
  repeat split; intros t x y z.
  - rewrite (Dx t x y z), (diff3_ext AX _ _ Z t x y z), (D0 AX t x y z).
    unfold zero3. ring.
  - rewrite (Dy t x y z), (diff3_ext AY _ _ Z t x y z), (D0 AY t x y z).
    unfold zero3. ring.
  - rewrite (Dz t x y z), (diff3_ext AZ _ _ Z t x y z), (D0 AZ t x y z).
    unfold zero3. ring.
  - rewrite (electric_source m (numerical_component _)
      (numerical_component _) (numerical_component _) t x y z).
    rewrite (diff3_ext AT _ _ Zb t x y z). apply D0.
Qed.

Lemma as1_div_b : forall rf rm c m, as1 rf rm c = Some m ->
  same3 (div_b m) zero3.
Proof.
  intros rf rm c m H t x y z. unfold as1, make_mhd in H.
  destruct (one_over rf) as [f|]; [|discriminate].
  destruct (one_over rm) as [g|]; [|discriminate].
  injection H as <-. unfold div_b. cbn [m_bx m_by m_bz].
  assert (U : numerical3 as1_U) by reflexivity.
  assert (V : numerical3 as1_V) by reflexivity.
  assert (W : numerical3 as1_W) by reflexivity.
  destruct (numerical_diff _ U) as [_ [_ [Uy [Uz _]]]].
  destruct (numerical_diff _ V) as [_ [Vx [_ [Vz _]]]].
  destruct (numerical_diff _ W) as [_ [Wx [Wy _]]].
  open3. cbn [none3 override o_x o_y o_z].
  unfold as1_bx, as1_by, as1_bz.
  rewrite (partial3_sub AX AY AZ _ _ _ _ Wy Vz t x y z).
  rewrite (partial3_sub AY AZ AX _ _ _ _ Uz Wx t x y z).
  rewrite (partial3_sub AZ AX AY _ _ _ _ Vx Uy t x y z).
  rewrite (diff3_comm AX AY (c_val as1_W) t x y z),
    (diff3_comm AX AZ (c_val as1_V) t x y z),
    (diff3_comm AY AZ (c_val as1_U) t x y z). unfold zero3. ring.
Qed.

(** *** Stokes, Poisson, wave and Schroedinger equations *)


Lemma eigen3 : forall (c k : R -> R) q,
  same3 q (fun t x y z => c t * (sin (2 * PI * x) * sin (2 * PI * y)
                                 * sin (2 * PI * z)) + k t) ->
  forall l, is_laplacian3 q l ->
  same3 l (fun t x y z => - 12 * PI ^ 2 * (c t * (sin (2 * PI * x)
    * sin (2 * PI * y) * sin (2 * PI * z)))).
Proof.
  intros c k q E l Hl t x y z.
  assert (E' : same3 (fun t x y z => c t * (sin (2 * PI * x)
    * sin (2 * PI * y) * sin (2 * PI * z)) + k t) q)
    by (intros t0 x0 y0 z0; symmetry; apply E).
  rewrite (Hl
    (fun t x y z => 2 * PI * c t * (cos (2 * PI * x) * sin (2 * PI * y)
       * sin (2 * PI * z)))
    (fun t x y z => 2 * PI * c t * (sin (2 * PI * x) * cos (2 * PI * y)
       * sin (2 * PI * z)))
    (fun t x y z => 2 * PI * c t * (sin (2 * PI * x) * sin (2 * PI * y)
       * cos (2 * PI * z)))
    (fun t x y z => - 4 * PI ^ 2 * c t * (sin (2 * PI * x)
       * sin (2 * PI * y) * sin (2 * PI * z)))
    (fun t x y z => - 4 * PI ^ 2 * c t * (sin (2 * PI * x)
       * sin (2 * PI * y) * sin (2 * PI * z)))
    (fun t x y z => - 4 * PI ^ 2 * c t * (sin (2 * PI * x)
       * sin (2 * PI * y) * sin (2 * PI * z))));
    [ring|eapply partial_ext;
      [exact E'|intros ? ? ? ?; reflexivity|partial3; ring] ..
     |partial3; ring|partial3; ring|partial3; ring].
Qed.

Lemma poisson_case : forall phi, exact3 phi -> c_val phi = po_phi ->
  same3 (poisson_f phi) (fun t x y z => 12 * PI ^ 2 *
    (sin (2 * PI * x) * sin (2 * PI * y) * sin (2 * PI * z))).
Proof.
  intros phi E V t x y z. assert (L := poisson3 phi E). rewrite V in L.
  assert (A := eigen3 (fun _ => 1) (fun t => t) po_phi).
  assert (B : same3 po_phi (fun t x y z => 1 * (sin (2 * PI * x)
    * sin (2 * PI * y) * sin (2 * PI * z)) + t))
    by (intros ? ? ? ?; unfold po_phi; ring).
  assert (C := A B _ L t x y z). cbv beta in C. lra.
Qed.

Lemma wave_case : forall phi own, exact3 phi -> c_val phi = wa_phi ->
  is_partial3 AT (c_t phi) (psi_t phi own) ->
  same3 (wave_f phi own) (fun t x y z =>
    (/ PI ^ 2 + 12 * PI ^ 2) * wa_phi t x y z).
Proof.
  intros phi own E V D t x y z.
  assert (L := poisson3 phi E). rewrite V in L.
  assert (A := eigen3 (fun t => exp (t / PI)) (fun _ => 0) wa_phi).
  assert (B : same3 wa_phi (fun t x y z => exp (t / PI) * (sin (2 * PI * x)
    * sin (2 * PI * y) * sin (2 * PI * z)) + 0))
    by (intros ? ? ? ?; unfold wa_phi; ring).
  assert (C := A B _ L t x y z). cbv beta in C.
  destruct E as [T _]. rewrite V in T.
  assert (NZ := PI_neq0).
  assert (T1 : is_partial3 AT wa_phi (fun t x y z => / PI * wa_phi t x y z)).
  { unfold wa_phi. partial3. field. exact NZ. }
  assert (T2 : is_partial3 AT (fun t x y z => / PI * wa_phi t x y z)
    (fun t x y z => / PI * (/ PI * wa_phi t x y z))).
  { unfold wa_phi. partial3. field. exact NZ. }
  assert (P := same_partial2nd _ _ _ _ _ _ _ T T1 D T2 t x y z).
  cbv beta in P. unfold wave_f. rewrite P.
  unfold poisson_f in C.
  replace (/ PI * (/ PI * wa_phi t x y z)) with (/ PI ^ 2 * wa_phi t x y z)
    by (field; exact NZ).
  assert (W : wa_phi t x y z = exp (t / PI) * (sin (2 * PI * x)
    * sin (2 * PI * y) * sin (2 * PI * z))) by (unfold wa_phi; ring).
  rewrite Rmult_plus_distr_r. rewrite <- W in C. lra.
Qed.

Lemma schroedinger_case : forall hbar m E psi l, hbar <> 0 -> m <> 0 ->
  c_val psi = ti_psi -> is_laplacian3 ti_psi l ->
  same3 (schroedinger_f hbar m E (ti_V hbar m E) psi) l.
Proof.
  intros hbar m E psi l Hh Hm V L t x y z.
  assert (A := eigen3 (fun _ => 1) (fun _ => 0) ti_psi).
  assert (B : same3 ti_psi (fun t x y z => 1 * (sin (2 * PI * x)
    * sin (2 * PI * y) * sin (2 * PI * z)) + 0))
    by (intros ? ? ? ?; unfold ti_psi; ring).
  rewrite (A B _ L t x y z). unfold schroedinger_f. cbv zeta. rewrite V.
  unfold ti_V, ti_psi, alpha. field. split; assumption.
Qed.

Lemma stokes_case : forall e, exact_flow3 e ->
  c_val (f_u e) = st_u -> c_val (f_v e) = st_v -> c_val (f_w e) = st_w ->
  c_val (f_p e) = st_p ->
  same3 (stokes_x3 e) (fun t x y z =>
    (12 * PI ^ 2 + 2 * PI) * st_u t x y z) /\
  same3 (stokes_y3 e) (fun t x y z =>
    (12 * PI ^ 2 + 2 * PI) * st_v t x y z) /\
  same3 (stokes_z3 e) (fun t x y z =>
    (12 * PI ^ 2 - PI) * st_w t x y z).
Proof.
  intros e [[_ [Ux [Uy [Uz [Uxx [Uyy Uzz]]]]]]
    [[_ [Vx [Vy [Vz [Vxx [Vyy Vzz]]]]]]
    [[_ [Wx [Wy [Wz [Wxx [Wyy Wzz]]]]]] [Px [Py Pz]]]]] Eu Ev Ew Ep.
  rewrite Eu in Ux, Uy, Uz. rewrite Ev in Vx, Vy, Vz.
  rewrite Ew in Wx, Wy, Wz. rewrite Ep in Px, Py, Pz.
  split; [|split]; intros t x y z;
    unfold stokes_x3, stokes_y3, stokes_z3, m_laplace3.
  - rewrite (partial_unique _ _ _ (fun t x y z => 2 * PI * st_u t x y z) Px)
      by (unfold st_p, st_u; partial3; ring).
    rewrite (same_partial2nd AX AX st_u _ (fun t x y z => - 2 * PI
      * (sin (2 * PI * x) * sin (2 * PI * y) * sin (2 * PI * z)))
      (c_xx (f_u e)) (fun t x y z => - 4 * PI ^ 2 * st_u t x y z) Ux)
      by (first [exact Uxx | unfold st_u; partial3; ring]).
    rewrite (same_partial2nd AY AY st_u _ (fun t x y z => 2 * PI
      * (cos (2 * PI * x) * cos (2 * PI * y) * sin (2 * PI * z)))
      (c_yy (f_u e)) (fun t x y z => - 4 * PI ^ 2 * st_u t x y z) Uy)
      by (first [exact Uyy | unfold st_u; partial3; ring]).
    rewrite (same_partial2nd AZ AZ st_u _ (fun t x y z => 2 * PI
      * (cos (2 * PI * x) * sin (2 * PI * y) * cos (2 * PI * z)))
      (c_zz (f_u e)) (fun t x y z => - 4 * PI ^ 2 * st_u t x y z) Uz)
      by (first [exact Uzz | unfold st_u; partial3; ring]).
    ring.
  - rewrite (partial_unique _ _ _ (fun t x y z => 2 * PI * st_v t x y z) Py)
      by (unfold st_p, st_v; partial3; ring).
    rewrite (same_partial2nd AX AX st_v _ (fun t x y z => 2 * PI
      * (cos (2 * PI * x) * cos (2 * PI * y) * sin (2 * PI * z)))
      (c_xx (f_v e)) (fun t x y z => - 4 * PI ^ 2 * st_v t x y z) Vx)
      by (first [exact Vxx | unfold st_v; partial3; ring]).
    rewrite (same_partial2nd AY AY st_v _ (fun t x y z => - 2 * PI
      * (sin (2 * PI * x) * sin (2 * PI * y) * sin (2 * PI * z)))
      (c_yy (f_v e)) (fun t x y z => - 4 * PI ^ 2 * st_v t x y z) Vy)
      by (first [exact Vyy | unfold st_v; partial3; ring]).
    rewrite (same_partial2nd AZ AZ st_v _ (fun t x y z => 2 * PI
      * (sin (2 * PI * x) * cos (2 * PI * y) * cos (2 * PI * z)))
      (c_zz (f_v e)) (fun t x y z => - 4 * PI ^ 2 * st_v t x y z) Vz)
      by (first [exact Vzz | unfold st_v; partial3; ring]).
    ring.
  - rewrite (partial_unique _ _ _ (fun t x y z => - PI * st_w t x y z) Pz)
      by (unfold st_p, st_w; partial3; ring).
    rewrite (same_partial2nd AX AX st_w _ (fun t x y z => - 4 * PI
      * (cos (2 * PI * x) * sin (2 * PI * y) * cos (2 * PI * z)))
      (c_xx (f_w e)) (fun t x y z => - 4 * PI ^ 2 * st_w t x y z) Wx)
      by (first [exact Wxx | unfold st_w; partial3; ring]).
    rewrite (same_partial2nd AY AY st_w _ (fun t x y z => - 4 * PI
      * (sin (2 * PI * x) * cos (2 * PI * y) * cos (2 * PI * z)))
      (c_yy (f_w e)) (fun t x y z => - 4 * PI ^ 2 * st_w t x y z) Wy)
      by (first [exact Wyy | unfold st_w; partial3; ring]).
    rewrite (same_partial2nd AZ AZ st_w _ (fun t x y z => 4 * PI
      * (sin (2 * PI * x) * sin (2 * PI * y) * sin (2 * PI * z)))
      (c_zz (f_w e)) (fun t x y z => - 4 * PI ^ 2 * st_w t x y z) Wz)
      by (first [exact Wzz | unfold st_w; partial3; ring]).
    ring.
Qed.

Lemma cons_first : first3 cons_U /\ first3 cons_V /\ first3 cons_W.
Proof.
  unfold first3, cons_U, cons_V, cons_W. open3.
  unfold cons_u, cons_v, cons_w, nil3.
  repeat split; partial3; ring.
Qed.
