(* The 2D discretizations, assembled; the coordinate transformation of 2D
   elements. *)
From Coq Require Import Reals List Lra Arith.
From Verif Require Import CtModel CtSpec CtProofs RingSum SpaceModel SpaceSpec DiscModel DiscSpec Disc2Model Disc2Spec Disc2Proofs.
Import ListNotations.
Open Scope R_scope.

Lemma disc2_grad n0 n1 r0 r1 p0 p1 F J orth f G E : length n0 = S p0 -> length n1 = S p1 -> jacobian2_of F J ->
  (orth = true -> forall x y, diagonal2 (J x y)) ->
  (forall x y, has_grad2 f x y (value2 G x y)) ->
  (forall b, integrates_along2 (mkGrid2 n0 n1 r0 r1) b (through2 f F)) -> EI10 [p0; p1] = Some E ->
  mat_times E (disc2_0 n0 n1 F f) (disc2_inner n0 n1 p0 p1 r0 r1 F J orth G).
Proof.
  intros H0 H1 HJ HO HG X HE. assert (A := disc2_0_ok (mkGrid2 n0 n1 r0 r1) p0 p1 H0 H1 F f).
  assert (B := disc2_inner_ok (mkGrid2 n0 n1 r0 r1) p0 p1 H0 H1 F J orth G HO). cbn [hx hy sx sy] in A, B. rewrite A, B.
  apply grad2_times; assumption.
Qed.
Lemma disc2_rot n0 n1 r0 r1 p0 p1 F J orth f G E : length n0 = S p0 -> length n1 = S p1 -> jacobian2_of F J ->
  (orth = true -> forall x y, diagonal2 (J x y)) ->
  (forall x y, has_grad2 f x y (- snd (value2 G x y), fst (value2 G x y))) ->
  (forall b, integrates_along2 (mkGrid2 n0 n1 r0 r1) b (through2 f F)) -> EO10 [p0; p1] = Some E ->
  mat_times E (disc2_0 n0 n1 F f) (disc2_outer n0 n1 p0 p1 r0 r1 F J orth G).
Proof.
  intros H0 H1 HJ HO HG X HE. assert (A := disc2_0_ok (mkGrid2 n0 n1 r0 r1) p0 p1 H0 H1 F f).
  assert (B := disc2_outer_ok (mkGrid2 n0 n1 r0 r1) p0 p1 H0 H1 F J orth G HO). cbn [hx hy sx sy] in A, B. rewrite A, B.
  apply rot2_times; assumption.
Qed.
Lemma disc2_curl n0 n1 r0 r1 s0 s1 p0 p1 F J orth hxy v D E : length n0 = S p0 -> length n1 = S p1 -> jacobian2_of F J ->
  (orth = true -> forall x y, diagonal2 (J x y)) -> mixed J hxy -> deriv2_of v D ->
  (forall b, integrates_along2 (mkGrid2 n0 n1 s0 s1) (negb b) (circ F J v b)) ->
  (forall b, agree_along2 n0 n1 r0 r1 s0 s1 b (circ F J v b)) ->
  EI21 [p0; p1] = Some E ->
  mat_times E (disc2_inner n0 n1 p0 p1 r0 r1 F J orth v) (disc2_2 n0 n1 p0 p1 s0 s1 F J (rot2 D)).
Proof.
  intros H0 H1 HJ HO HM HD X A HE. assert (B := disc2_inner_ok (mkGrid2 n0 n1 r0 r1) p0 p1 H0 H1 F J orth v HO).
  assert (C := disc2_2_ok (mkGrid2 n0 n1 s0 s1) p0 p1 H0 H1 F J (rot2 D)). cbn [hx hy sx sy] in B, C. rewrite B, C.
  eapply curl2_times; try eassumption; [exact (X true)|exact (X false)].
Qed.
Lemma disc2_div n0 n1 r0 r1 s0 s1 p0 p1 F J orth hxy v D E : length n0 = S p0 -> length n1 = S p1 -> jacobian2_of F J ->
  (orth = true -> forall x y, diagonal2 (J x y)) -> mixed J hxy -> deriv2_of v D ->
  (forall b, integrates_along2 (mkGrid2 n0 n1 s0 s1) (negb b) (flux F J v b)) ->
  (forall b, agree_along2 n0 n1 r0 r1 s0 s1 b (flux F J v b)) ->
  EO21 [p0; p1] = Some E ->
  mat_times E (disc2_outer n0 n1 p0 p1 r0 r1 F J orth v) (disc2_2 n0 n1 p0 p1 s0 s1 F J (div2 D)).
Proof.
  intros H0 H1 HJ HO HM HD X A HE. assert (B := disc2_outer_ok (mkGrid2 n0 n1 r0 r1) p0 p1 H0 H1 F J orth v HO).
  assert (C := disc2_2_ok (mkGrid2 n0 n1 s0 s1) p0 p1 H0 H1 F J (div2 D)). cbn [hx hy sx sy] in B, C. rewrite B, C.
  eapply div2_times; try eassumption; [exact (X true)|exact (X false)].
Qed.

(* ---------- coordinate transformation ---------- *)
Lemma ct2_jacobian phi dphi e orth : jacobian2_of phi dphi -> (orth = true -> forall x y, diagonal2 (dphi x y)) ->
  jacobian2_of (ct2_mapping phi e) (ct2_Jacobian_matrix dphi e orth).
Proof.
  intros H O x y. specialize (H (to_ref2 (o0 e) (d0 e) x) (to_ref2 (o1 e) (d1 e) y)).
  assert (O' := fun h => O h (to_ref2 (o0 e) (d0 e) x) (to_ref2 (o1 e) (d1 e) y)). clear O.
  unfold ct2_Jacobian_matrix, ct2_mapping. destruct (dphi _ _) as [[xr xs] [yr ys]]. cbn [fst snd] in *.
  destruct H as (A & B & C & D).
  set (u := to_ref2 (o0 e) (d0 e) x) in *. set (w := to_ref2 (o1 e) (d1 e) y) in *.
  assert (A' := chain_lim (fun s : R => fst phi s w) (d0 e) (o0 e) x _ A). assert (B' := chain_lim (fun s : R => fst phi u s) (d1 e) (o1 e) y _ B).
  assert (C' := chain_lim (fun s : R => snd phi s w) (d0 e) (o0 e) x _ C). assert (D' := chain_lim (fun s : R => snd phi u s) (d1 e) (o1 e) y _ D).
  destruct orth; [|auto]. destruct (O' eq_refl) as [E1 E2]. cbn [fst snd] in *. subst.
  rewrite Rmult_0_l in B', C'. auto.
Qed.
Lemma ct2_inverse_ok m : ct2_Jacobian m <> 0 -> inverse2 m (ct2_inverse m) /\ inverse2 (ct2_inverse m) m.
Proof. destruct m as [[a b] [c d]]. unfold ct2_Jacobian, ct2_inverse, inverse2. intros H. repeat split; field; exact H. Qed.
Lemma ct2_inverse_det m : ct2_Jacobian m <> 0 -> ct2_inverse_Jacobian (ct2_inverse m) * ct2_Jacobian m = 1.
Proof. destruct m as [[a b] [c d]]. unfold ct2_Jacobian, ct2_inverse, ct2_inverse_Jacobian. intros H. field. exact H. Qed.
Lemma ct2_gram m (i j : bool) : comp j (if i then snd (ct2_metric_matrix m) else fst (ct2_metric_matrix m)) = dot2 (mcol m i) (mcol m j).
Proof. destruct m as [[a b] [c d]], i, j; unfold ct2_metric_matrix, dot2, mcol, comp; cbn [fst snd]; ring. Qed.
Lemma ct2_metric_det m : ct2_metric m = ct2_Jacobian (ct2_metric_matrix m).
Proof. destruct m as [[a b] [c d]]. unfold ct2_metric, ct2_Jacobian, ct2_metric_matrix. ring. Qed.
Lemma ct2_inverse_gram m : ct2_Jacobian m <> 0 ->
  inverse2 (ct2_metric_matrix m) (ct2_inverse_metric_matrix (ct2_inverse m)) /\
  inverse2 (ct2_inverse_metric_matrix (ct2_inverse m)) (ct2_metric_matrix m).
Proof.
  destruct m as [[a b] [c d]]. unfold ct2_Jacobian, ct2_inverse, ct2_metric_matrix, ct2_inverse_metric_matrix, inverse2. intros H.
  repeat split; field; exact H.
Qed.
