(* The discretizations commute with gradient, curl and divergence. *)
From Coq Require Import Reals List Lia Lra Arith ZArith Bool.
From Verif Require Import TfiModel TfiSpec CtModel CtSpec CtProofs RingSum SpaceModel SpaceSpec SpaceProofs SpaceProofs2 SpaceProofs3.
From Verif Require Import DiscModel DiscSpec DiscProofs DiscProofs2.
Import ListNotations.
Open Scope R_scope.

(* ---------- sums over cells ---------- *)
Lemma rsum_plus {A} (l : list A) f h : rsum l (fun a => f a + h a) = rsum l f + rsum l h.
Proof. induction l as [|x l IH]; [unfold rsum; cbn; ring|]. rewrite !rsum_cons, IH. ring. Qed.
Lemma rsum_minus {A} (l : list A) f h : rsum l (fun a => f a - h a) = rsum l f - rsum l h.
Proof. induction l as [|x l IH]; [unfold rsum; cbn; ring|]. rewrite !rsum_cons, IH. ring. Qed.
Lemma rsum_zero {A} (l : list A) : rsum l (fun _ => 0) = 0.
Proof. induction l as [|x l IH]; [reflexivity|]. rewrite rsum_cons, IH. ring. Qed.
Lemma rsum_swap {A B} (l : list A) (m : list B) f : rsum l (fun a => rsum m (fun b => f a b)) = rsum m (fun b => rsum l (fun a => f a b)).
Proof.
  induction l as [|x l IH].
  - unfold rsum at 1. cbn [fold_right]. symmetry. apply rsum_zero.
  - rewrite rsum_cons, IH, <- rsum_plus. reflexivity.
Qed.
Definition Q (n : list R) r f (h : R -> R) : R := rsum (factor_rule n r f) (fun pw => h (fst pw) * snd pw).
Lemma quad_Q g h a b c : cell_quad g h [a; b; c] =
  Q (gx g) (rx g) a (fun x => Q (gy g) (ry g) b (fun y => Q (gz g) (rz g) c (fun z => h x y z))).
Proof.
  unfold cell_quad, Q. apply rsum_ext. intros u _. rewrite rsum_scal. apply rsum_ext. intros v _. rewrite !rsum_scal.
  apply rsum_ext. intros w _. ring.
Qed.
Lemma Q_minus n r f h h' : Q n r f (fun x => h x - h' x) = Q n r f h - Q n r f h'.
Proof. unfold Q. rewrite <- rsum_minus. apply rsum_ext. intros. ring. Qed.
Lemma Q_ext n r f h h' : (forall x, h x = h' x) -> Q n r f h = Q n r f h'.
Proof. intros H. unfold Q. apply rsum_ext. intros. rewrite H. reflexivity. Qed.
Lemma Q_swap n r f n' r' f' h : Q n r f (fun x => Q n' r' f' (fun y => h x y)) = Q n' r' f' (fun y => Q n r f (fun x => h x y)).
Proof.
  unfold Q. rewrite (rsum_ext _ _ (fun a => rsum (factor_rule n' r' f') (fun b => h (fst a) (fst b) * snd a * snd b))).
  - rewrite rsum_swap. apply rsum_ext. intros u _. rewrite rsum_scal. apply rsum_ext. intros. ring.
  - intros a _. rewrite rsum_scal. apply rsum_ext. intros. ring.
Qed.
Lemma Q_pt n r i h : Q n r (false, i) h = h (nd n i).
Proof. unfold Q. rewrite factor_pt. cbn [fst snd]. ring. Qed.

Lemma stokes_x g h h' i b c : (S i < length (gx g))%nat -> (forall x y z, derivable_pt_lim (fun s => h s y z) x (h' x y z)) ->
  integrates_along g cX h -> cell_quad g h' [(true, i); b; c] = cell_quad g h [(false, S i); b; c] - cell_quad g h [(false, i); b; c].
Proof.
  intros L D X. rewrite !quad_Q, !Q_pt. rewrite Q_swap, <- Q_minus. apply Q_ext. intros y. rewrite Q_swap, <- Q_minus.
  apply Q_ext. intros z. apply (X y z (fun x => h' x y z)); [|exact L]. intros x. apply D.
Qed.
Lemma stokes_y g h h' i a c : (S i < length (gy g))%nat -> (forall x y z, derivable_pt_lim (fun s => h x s z) y (h' x y z)) ->
  integrates_along g cY h -> cell_quad g h' [a; (true, i); c] = cell_quad g h [a; (false, S i); c] - cell_quad g h [a; (false, i); c].
Proof.
  intros L D X. rewrite !quad_Q, <- Q_minus. apply Q_ext. intros x. rewrite !Q_pt. rewrite Q_swap, <- Q_minus.
  apply Q_ext. intros z. apply (X x z (fun y => h' x y z)); [|exact L]. intros y. apply D.
Qed.
Lemma stokes_z g h h' i a b : (S i < length (gz g))%nat -> (forall x y z, derivable_pt_lim (fun s => h x y s) z (h' x y z)) ->
  integrates_along g cZ h -> cell_quad g h' [a; b; (true, i)] = cell_quad g h [a; b; (false, S i)] - cell_quad g h [a; b; (false, i)].
Proof.
  intros L D X. rewrite !quad_Q, <- Q_minus. apply Q_ext. intros x. rewrite <- Q_minus. apply Q_ext. intros y. rewrite !Q_pt.
  apply (X x y (fun z => h' x y z)); [|exact L]. intros z. apply D.
Qed.
Lemma quad_plus g h h' c : cell_quad g (fun x y z => h x y z + h' x y z) c = cell_quad g h c + cell_quad g h' c.
Proof.
  unfold cell_quad. destruct c as [|a [|b [|d [|e c]]]]; try ring.
  rewrite <- rsum_plus. apply rsum_ext. intros u _. rewrite <- rsum_plus. apply rsum_ext. intros v _. rewrite <- rsum_plus.
  apply rsum_ext. intros. ring.
Qed.
Lemma quad_minus g h h' c : cell_quad g (fun x y z => h x y z - h' x y z) c = cell_quad g h c - cell_quad g h' c.
Proof.
  unfold cell_quad. destruct c as [|a [|b [|d [|e c]]]]; try ring.
  rewrite <- rsum_minus. apply rsum_ext. intros u _. rewrite <- rsum_minus. apply rsum_ext. intros v _. rewrite <- rsum_minus.
  apply rsum_ext. intros. ring.
Qed.

(* ---------- rows of the incidence matrices ---------- *)
Lemma nth_pos (W : cell -> R) cs c : In c cs -> nth (SpaceProofs.pos cs c) (map W cs) 0 = W c.
Proof. intros H. apply pos_nth in H. apply nth_error_nth. rewrite nth_error_map, H. reflexivity. Qed.
Lemma acts_times p ss ds tab E (W U : cell -> R) : types_ok p ss -> types_ok p ds -> tab_ok p ss ds tab ->
  acts RRing p ss ds tab E ->
  (forall d t tl i, nth_error ds d = Some t -> nth_error tab d = Some tl -> inb (sizes p t) i = true ->
     U (combine t i) = bsum (K := RRing) (row_cells ss tl i) (fun cv => zmul (K := RRing) (snd cv) (W (fst cv)))) ->
  mat_times E (map W (cells p ss)) (map U (cells p ds)).
Proof.
  intros Ts Td Tab A H r Hr. rewrite map_length in *.
  destruct (nth_error (cells p ds) r) as [c|] eqn:Ec; [|apply nth_error_None in Ec; lia].
  assert (Hc := nth_error_In _ _ Ec). destruct (in_cells_ex p ds c Td Hc) as (d & t & i & Hd & -> & Li & Lt & Hi).
  assert (SpaceProofs.pos (cells p ds) (combine t i) = r) as <- by (apply pos_eq; [apply NoDup_cells; exact Td|exact Ec]).
  destruct (nth_error tab d) as [tl|] eqn:Htl.
  - rewrite (A d t tl i Hd Htl Hi). rewrite nth_pos by exact Hc. rewrite (H d t tl i Hd Htl Hi). apply (bsum_ext RRing).
    intros [c v] Hin. cbn [fst snd]. rewrite nth_pos; [reflexivity|].
    destruct (cell_of p ds Td t i (nth_error_In _ _ Hd) Hi) as (C1 & C2 & _).
    eapply row_cells_in; eassumption.
  - apply nth_error_None in Htl. destruct Tab as [Tl _]. assert (d < length ds)%nat by (apply nth_error_Some; congruence). lia.
Qed.

(* ---------- derivatives of the pull backs ---------- *)
Lemma lim_dot3 (u0 u1 u2 v0 v1 v2 : R -> R) x a0 a1 a2 b0 b1 b2 :
  derivable_pt_lim u0 x a0 -> derivable_pt_lim u1 x a1 -> derivable_pt_lim u2 x a2 ->
  derivable_pt_lim v0 x b0 -> derivable_pt_lim v1 x b1 -> derivable_pt_lim v2 x b2 ->
  derivable_pt_lim (fun s => u0 s * v0 s + u1 s * v1 s + u2 s * v2 s) x
    ((a0 * v0 x + u0 x * b0) + (a1 * v1 x + u1 x * b1) + (a2 * v2 x + u2 x * b2)).
Proof.
  intros. apply (derivable_pt_lim_plus (fun s => u0 s * v0 s + u1 s * v1 s) (fun s => u2 s * v2 s)).
  - apply (derivable_pt_lim_plus (fun s => u0 s * v0 s) (fun s => u1 s * v1 s)); apply derivable_pt_lim_mult; assumption.
  - apply derivable_pt_lim_mult; assumption.
Qed.
Lemma lim_minor (a b c d : R -> R) x a' b' c' d' :
  derivable_pt_lim a x a' -> derivable_pt_lim b x b' -> derivable_pt_lim c x c' -> derivable_pt_lim d x d' ->
  derivable_pt_lim (fun s => a s * b s - c s * d s) x ((a' * b x + a x * b') - (c' * d x + c x * d')).
Proof.
  intros. apply (derivable_pt_lim_minus (fun s => a s * b s) (fun s => c s * d s)); apply derivable_pt_lim_mult; assumption.
Qed.
Lemma jac_ent F J : jacobian_of F J -> forall c x y z,
  derivable_pt_lim (fun s => F c s y z) x (ent (J x y z) c cX) /\
  derivable_pt_lim (fun s => F c x s z) y (ent (J x y z) c cY) /\
  derivable_pt_lim (fun s => F c x y s) z (ent (J x y z) c cZ).
Proof. intros H c x y z. specialize (H c x y z). unfold ent. destruct (mrow (J x y z) c) as [[a b] d]. exact H. Qed.
(* f o F along the axes *)
Lemma through_lim F J f x y z G : jacobian_of F J -> has_grad f (F cX x y z) (F cY x y z) (F cZ x y z) G ->
  derivable_pt_lim (fun s => through f F s y z) x (dot G (col (J x y z) cX)) /\
  derivable_pt_lim (fun s => through f F x s z) y (dot G (col (J x y z) cY)) /\
  derivable_pt_lim (fun s => through f F x y s) z (dot G (col (J x y z) cZ)).
Proof.
  intros HJ HG. assert (K := jac_ent F J HJ). unfold through. repeat split.
  - apply (HG (fun c s => F c s y z)); try reflexivity. intros c. destruct (K c x y z) as (D & _ & _). destruct c; exact D.
  - apply (HG (fun c s => F c x s z)); try reflexivity. intros c. destruct (K c x y z) as (_ & D & _). destruct c; exact D.
  - apply (HG (fun c s => F c x y s)); try reflexivity. intros c. destruct (K c x y z) as (_ & _ & D). destruct c; exact D.
Qed.

Section Commute.
Variables (g : Grid) (p0 p1 p2 : nat) (F : coord -> R -> R -> R -> R) (J : R -> R -> R -> mat3).
Hypotheses (H0 : length (gx g) = S p0) (H1 : length (gy g) = S p1) (H2 : length (gz g) = S p2).
Hypothesis HJ : jacobian_of F J.

Lemma dot_comm u v : dot u v = dot v u.
Proof. unfold dot, csum. ring. Qed.
Lemma grad_pull1 f G : (forall x y z, has_grad f x y z (value G x y z)) -> forall x y z,
  derivable_pt_lim (fun s => through f F s y z) x (pull1 F J G cX x y z) /\
  derivable_pt_lim (fun s => through f F x s z) y (pull1 F J G cY x y z) /\
  derivable_pt_lim (fun s => through f F x y s) z (pull1 F J G cZ x y z).
Proof.
  intros HG x y z. unfold pull1. rewrite !(dot_comm (col _ _)). apply through_lim; [exact HJ|]. apply HG.
Qed.

Ltac row_t Htl Hi :=
  cbn [row_cells flat_map nth_error fst snd bump upd combine app nodes3 edges3 faces3 volumes3 map];
  unfold bsum; cbn [fold_right fst snd]; rewrite ?(zmul_1 RRing), ?(zmul_m1 RRing);
  change (@radd RRing) with Rplus; change (@ropp RRing) with Ropp; change (@r0 RRing) with 0;
  cbn [inb sizes size] in Hi; rewrite !andb_true_iff, !Nat.ltb_lt in Hi; rewrite ?Nat.add_1_r.

Lemma grad_times f G E : (forall x y z, has_grad f x y z (value G x y z)) ->
  integrates_along g cX (through f F) -> integrates_along g cY (through f F) -> integrates_along g cZ (through f F) ->
  E10 [p0; p1; p2] = Some E ->
  mat_times E (map (int0 g F f) (cells [p0; p1; p2] nodes3)) (map (int1 g F J G) (cells [p0; p1; p2] edges3)).
Proof.
  intros HG X Y Z HE. destruct (E10_acts RRing p0 p1 p2) as (E' & HE' & A). rewrite HE in HE'. injection HE' as <-.
  apply (acts_times _ _ _ _ _ _ _ (nodes3_ok _ _ _) (edges3_ok _ _ _) (tab10_ok _ _ _) A). intros d t tl i Hd Htl Hi.
  assert (D := grad_pull1 f G HG).
  destruct i as [|i0 [|i1 [|i2 [|]]]]; destruct d as [|[|[|d]]]; cbn in Hd, Htl; try (destruct d; discriminate);
    injection Hd as <-; injection Htl as <-; try (cbn in Hi; rewrite ?andb_false_r in Hi; discriminate Hi).
  - row_t Htl Hi. unfold int1, int0. cbn [along map fst].
    rewrite (stokes_x g (through f F)); [lra|lia|intros; apply D|exact X].
  - row_t Htl Hi. unfold int1, int0. cbn [along map fst].
    rewrite (stokes_y g (through f F)); [lra|lia|intros; apply D|exact Y].
  - row_t Htl Hi. unfold int1, int0. cbn [along map fst].
    rewrite (stokes_z g (through f F)); [lra|lia|intros; apply D|exact Z].
Qed.

(* ---------- curl ---------- *)
Variable (H : coord -> coord -> coord -> R -> R -> R -> R).
Hypothesis HH : second_derivs J H.
Variables (v : coord -> R -> R -> R -> R) (D : coord -> coord -> R -> R -> R -> R).
(* the derivatives of v at the image of a point *)
Definition deriv_at (x y z : R) : Prop :=
  forall i, has_grad (v i) (F cX x y z) (F cY x y z) (F cZ x y z) (through (D i cX) F x y z, through (D i cY) F x y z, through (D i cZ) F x y z).
Lemma deriv_all : deriv_of v D -> forall x y z, deriv_at x y z.
Proof. intros HD x y z i. apply HD. Qed.

(* derivative of v_i o F along the axis a *)
Definition dv (i a : coord) (x y z : R) : R :=
  dot (through (D i cX) F x y z, through (D i cY) F x y z, through (D i cZ) F x y z) (col (J x y z) a).
Lemma dv_ok i x y z : deriv_at x y z ->
  derivable_pt_lim (fun s => through (v i) F s y z) x (dv i cX x y z) /\
  derivable_pt_lim (fun s => through (v i) F x s z) y (dv i cY x y z) /\
  derivable_pt_lim (fun s => through (v i) F x y s) z (dv i cZ x y z).
Proof. intros HD. unfold dv. apply through_lim; [exact HJ|]. apply HD. Qed.
Definition dpull1 (c a : coord) (x y z : R) : R :=
  (H cX c a x y z * through (v cX) F x y z + ent (J x y z) cX c * dv cX a x y z) +
  (H cY c a x y z * through (v cY) F x y z + ent (J x y z) cY c * dv cY a x y z) +
  (H cZ c a x y z * through (v cZ) F x y z + ent (J x y z) cZ c * dv cZ a x y z).
Lemma dpull1_ok c x y z : deriv_at x y z ->
  derivable_pt_lim (fun s => pull1 F J v c s y z) x (dpull1 c cX x y z) /\
  derivable_pt_lim (fun s => pull1 F J v c x s z) y (dpull1 c cY x y z) /\
  derivable_pt_lim (fun s => pull1 F J v c x y s) z (dpull1 c cZ x y z).
Proof.
  intros HD. destruct HH as [HH1 _].
  destruct (HH1 cX c x y z) as (A0 & B0 & C0). destruct (HH1 cY c x y z) as (A1 & B1 & C1). destruct (HH1 cZ c x y z) as (A2 & B2 & C2).
  destruct (dv_ok cX x y z HD) as (A3 & B3 & C3). destruct (dv_ok cY x y z HD) as (A4 & B4 & C4). destruct (dv_ok cZ x y z HD) as (A5 & B5 & C5).
  repeat split.
  - exact (lim_dot3 _ _ _ _ _ _ _ _ _ _ _ _ _ A0 A1 A2 A3 A4 A5).
  - exact (lim_dot3 _ _ _ _ _ _ _ _ _ _ _ _ _ B0 B1 B2 B3 B4 B5).
  - exact (lim_dot3 _ _ _ _ _ _ _ _ _ _ _ _ _ C0 C1 C2 C3 C4 C5).
Qed.
Notation curl := (curl_field D).
Lemma pull2_curl c x y z : pull2 F J curl c x y z = dpull1 (next (next c)) (next c) x y z - dpull1 (next c) (next (next c)) x y z.
Proof.
  destruct HH as [_ S]. unfold dpull1. rewrite (S cX (next c) (next (next c))), (S cY (next c) (next (next c))), (S cZ (next c) (next (next c))).
  unfold pull2, curl_field, dv, curl_of, dot, csum, cross, col, through, value, TfiModel.get. destruct c; cbn [next]; ring.
Qed.
Lemma curl_times E : deriv_of v D ->
  (forall c a, c <> a -> integrates_along g a (pull1 F J v c)) ->
  E21 [p0; p1; p2] = Some E ->
  mat_times E (map (int1 g F J v) (cells [p0; p1; p2] edges3)) (map (int2 g F J curl) (cells [p0; p1; p2] faces3)).
Proof.
  intros HD X HE. destruct (E21_acts RRing p0 p1 p2) as (E' & HE' & A). rewrite HE in HE'. injection HE' as <-.
  apply (acts_times _ _ _ _ _ _ _ (edges3_ok _ _ _) (faces3_ok _ _ _) (tab21_ok _ _ _) A). intros d t tl i Hd Htl Hi.
  assert (P := fun c x y z => dpull1_ok c x y z (deriv_all HD x y z)).
  destruct i as [|i0 [|i1 [|i2 [|]]]]; destruct d as [|[|[|d]]]; cbn in Hd, Htl; try (destruct d; discriminate);
    injection Hd as <-; injection Htl as <-; try (cbn in Hi; rewrite ?andb_false_r in Hi; discriminate Hi).
  - row_t Htl Hi. unfold int2, int1. cbn [along normal map fst]. rewrite (quad_ext _ _ _ _ (pull2_curl cX)), quad_minus. cbn [next].
    rewrite (stokes_y g (pull1 F J v cZ) (dpull1 cZ cY)); [|lia|intros; apply P|apply X; discriminate].
    rewrite (stokes_z g (pull1 F J v cY) (dpull1 cY cZ)); [lra|lia|intros; apply P|apply X; discriminate].
  - row_t Htl Hi. unfold int2, int1. cbn [along normal map fst]. rewrite (quad_ext _ _ _ _ (pull2_curl cY)), quad_minus. cbn [next].
    rewrite (stokes_z g (pull1 F J v cX) (dpull1 cX cZ)); [|lia|intros; apply P|apply X; discriminate].
    rewrite (stokes_x g (pull1 F J v cZ) (dpull1 cZ cX)); [lra|lia|intros; apply P|apply X; discriminate].
  - row_t Htl Hi. unfold int2, int1. cbn [along normal map fst]. rewrite (quad_ext _ _ _ _ (pull2_curl cZ)), quad_minus. cbn [next].
    rewrite (stokes_x g (pull1 F J v cY) (dpull1 cY cX)); [|lia|intros; apply P|apply X; discriminate].
    rewrite (stokes_y g (pull1 F J v cX) (dpull1 cX cY)); [lra|lia|intros; apply P|apply X; discriminate].
Qed.

(* ---------- divergence ---------- *)
(* component k of the cross product of the columns a and b *)
Definition minor (k a b : coord) (x y z : R) : R :=
  ent (J x y z) (next k) a * ent (J x y z) (next (next k)) b - ent (J x y z) (next (next k)) a * ent (J x y z) (next k) b.
Definition dminor (k a b c : coord) (x y z : R) : R :=
  (H (next k) a c x y z * ent (J x y z) (next (next k)) b + ent (J x y z) (next k) a * H (next (next k)) b c x y z) -
  (H (next (next k)) a c x y z * ent (J x y z) (next k) b + ent (J x y z) (next (next k)) a * H (next k) b c x y z).
Lemma dminor_ok k a b x y z :
  derivable_pt_lim (fun s => minor k a b s y z) x (dminor k a b cX x y z) /\
  derivable_pt_lim (fun s => minor k a b x s z) y (dminor k a b cY x y z) /\
  derivable_pt_lim (fun s => minor k a b x y s) z (dminor k a b cZ x y z).
Proof.
  destruct HH as [HH1 _].
  destruct (HH1 (next k) a x y z) as (A0 & B0 & C0). destruct (HH1 (next (next k)) a x y z) as (A1 & B1 & C1).
  destruct (HH1 (next k) b x y z) as (A2 & B2 & C2). destruct (HH1 (next (next k)) b x y z) as (A3 & B3 & C3).
  repeat split.
  - exact (lim_minor _ _ _ _ _ _ _ _ _ A0 A3 A1 A2).
  - exact (lim_minor _ _ _ _ _ _ _ _ _ B0 B3 B1 B2).
  - exact (lim_minor _ _ _ _ _ _ _ _ _ C0 C3 C1 C2).
Qed.
Definition dpull2 (c a : coord) (x y z : R) : R :=
  (dminor cX (next c) (next (next c)) a x y z * through (v cX) F x y z + minor cX (next c) (next (next c)) x y z * dv cX a x y z) +
  (dminor cY (next c) (next (next c)) a x y z * through (v cY) F x y z + minor cY (next c) (next (next c)) x y z * dv cY a x y z) +
  (dminor cZ (next c) (next (next c)) a x y z * through (v cZ) F x y z + minor cZ (next c) (next (next c)) x y z * dv cZ a x y z).
Lemma pull2_minor c x y z : pull2 F J v c x y z =
  minor cX (next c) (next (next c)) x y z * through (v cX) F x y z +
  minor cY (next c) (next (next c)) x y z * through (v cY) F x y z +
  minor cZ (next c) (next (next c)) x y z * through (v cZ) F x y z.
Proof. unfold pull2, minor, dot, csum, cross, col, through, value, TfiModel.get. destruct c; cbn [next]; ring. Qed.
Lemma dpull2_ok c x y z : deriv_at x y z ->
  derivable_pt_lim (fun s => pull2 F J v c s y z) x (dpull2 c cX x y z) /\
  derivable_pt_lim (fun s => pull2 F J v c x s z) y (dpull2 c cY x y z) /\
  derivable_pt_lim (fun s => pull2 F J v c x y s) z (dpull2 c cZ x y z).
Proof.
  intros HD. destruct (dminor_ok cX (next c) (next (next c)) x y z) as (A0 & B0 & C0). destruct (dminor_ok cY (next c) (next (next c)) x y z) as (A1 & B1 & C1).
  destruct (dminor_ok cZ (next c) (next (next c)) x y z) as (A2 & B2 & C2).
  destruct (dv_ok cX x y z HD) as (A3 & B3 & C3). destruct (dv_ok cY x y z HD) as (A4 & B4 & C4). destruct (dv_ok cZ x y z HD) as (A5 & B5 & C5).
  repeat split.
  - eapply TfiProofs.lim_ext'; [intros s; symmetry; apply pull2_minor|]. exact (lim_dot3 _ _ _ _ _ _ _ _ _ _ _ _ _ A0 A1 A2 A3 A4 A5).
  - eapply TfiProofs.lim_ext'; [intros s; symmetry; apply pull2_minor|]. exact (lim_dot3 _ _ _ _ _ _ _ _ _ _ _ _ _ B0 B1 B2 B3 B4 B5).
  - eapply TfiProofs.lim_ext'; [intros s; symmetry; apply pull2_minor|]. exact (lim_dot3 _ _ _ _ _ _ _ _ _ _ _ _ _ C0 C1 C2 C3 C4 C5).
Qed.
Notation div := (div_field D).
Lemma pull3_div x y z : pull3 F J div x y z = dpull2 cX cX x y z + dpull2 cY cY x y z + dpull2 cZ cZ x y z.
Proof.
  destruct HH as [_ S]. unfold dpull2, dminor. cbn [next].
  rewrite (S cX cY cX), (S cY cY cX), (S cZ cY cX), (S cX cZ cX), (S cY cZ cX), (S cZ cZ cX), (S cX cZ cY), (S cY cZ cY), (S cZ cZ cY).
  unfold pull3, div_field, div_of, dv, minor, dot, csum, col, through, det3, ent, mrow. cbn [next].
  destruct (J x y z) as [[[[a b] d] [[e' f] h]] [[i j] k]]. cbn [TfiModel.get]. ring.
Qed.
Lemma div_times E : deriv_of v D ->
  (forall c, integrates_along g c (pull2 F J v c)) ->
  E32 [p0; p1; p2] = Some E ->
  mat_times E (map (int2 g F J v) (cells [p0; p1; p2] faces3)) (map (int3 g F J div) (cells [p0; p1; p2] volumes3)).
Proof.
  intros HD X HE. destruct (E32_acts RRing p0 p1 p2) as (E' & HE' & A). rewrite HE in HE'. injection HE' as <-.
  apply (acts_times _ _ _ _ _ _ _ (faces3_ok _ _ _) (volumes3_ok _ _ _) (tab32_ok _ _ _) A). intros d t tl i Hd Htl Hi.
  assert (P := fun c x y z => dpull2_ok c x y z (deriv_all HD x y z)).
  destruct i as [|i0 [|i1 [|i2 [|]]]]; destruct d as [|d]; cbn in Hd, Htl; try (destruct d; discriminate);
    injection Hd as <-; injection Htl as <-; try (cbn in Hi; rewrite ?andb_false_r in Hi; discriminate Hi).
  row_t Htl Hi. unfold int3, int2. cbn [normal map fst]. rewrite (quad_ext _ _ _ _ pull3_div), !quad_plus.
  rewrite (stokes_x g (pull2 F J v cX) (dpull2 cX cX)); [|lia|intros; apply P|apply X].
  rewrite (stokes_y g (pull2 F J v cY) (dpull2 cY cY)); [|lia|intros; apply P|apply X].
  rewrite (stokes_z g (pull2 F J v cZ) (dpull2 cZ cZ)); [lra|lia|intros; apply P|apply X].
Qed.
End Commute.

Lemma disc_grad g p0 p1 p2 F J orth f G E :
  length (gx g) = S p0 -> length (gy g) = S p1 -> length (gz g) = S p2 ->
  jacobian_of F J -> (orth = true -> forall x y z, diagonal (J x y z)) ->
  (forall x y z, has_grad f x y z (value G x y z)) ->
  (forall c, integrates_along g c (through f F)) ->
  E10 [p0; p1; p2] = Some E ->
  mat_times E (disc0 (gx g) (gy g) (gz g) F f)
              (disc1 (gx g) (gy g) (gz g) p0 p1 p2 (rx g) (ry g) (rz g) F J orth G).
Proof.
  intros H0 H1 H2 HJ HO HG X HE. rewrite (disc0_ok g p0 p1 p2), disc1_ok by assumption.
  apply grad_times; auto.
Qed.
Lemma disc_curl g p0 p1 p2 F J H orth orth' v D E :
  length (gx g) = S p0 -> length (gy g) = S p1 -> length (gz g) = S p2 ->
  jacobian_of F J -> second_derivs J H -> (orth = true \/ orth' = true -> forall x y z, diagonal (J x y z)) ->
  deriv_of v D ->
  (forall c a, c <> a -> integrates_along g a (pull1 F J v c)) ->
  E21 [p0; p1; p2] = Some E ->
  mat_times E (disc1 (gx g) (gy g) (gz g) p0 p1 p2 (rx g) (ry g) (rz g) F J orth v)
              (disc2 (gx g) (gy g) (gz g) p0 p1 p2 (rx g) (ry g) (rz g) F J orth' (curl_field D)).
Proof.
  intros H0 H1 H2 HJ HH HO HD X HE. rewrite disc1_ok, disc2_ok by auto. eapply curl_times; eassumption.
Qed.
Lemma disc_div g p0 p1 p2 F J H orth v D E :
  length (gx g) = S p0 -> length (gy g) = S p1 -> length (gz g) = S p2 ->
  jacobian_of F J -> second_derivs J H -> (orth = true -> forall x y z, diagonal (J x y z)) ->
  deriv_of v D ->
  (forall c, integrates_along g c (pull2 F J v c)) ->
  E32 [p0; p1; p2] = Some E ->
  mat_times E (disc2 (gx g) (gy g) (gz g) p0 p1 p2 (rx g) (ry g) (rz g) F J orth v)
              (disc3 (gx g) (gy g) (gz g) p0 p1 p2 (rx g) (ry g) (rz g) F J (div_field D)).
Proof.
  intros H0 H1 H2 HJ HH HO HD X HE. rewrite disc3_ok, disc2_ok by auto. eapply div_times; eassumption.
Qed.
