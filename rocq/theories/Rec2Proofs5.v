(* Derivatives of the fields of cochains on a 2D element. *)
From Coq Require Import Reals List Lia Lra Arith ZArith Bool.
From Coq Require Import Ranalysis5.
From Verif Require Import TfiModel TfiSpec TfiProofs CtModel RingSum SpaceModel SpaceSpec SpaceProofs SpaceProofs2 SpaceProofs3 DiscModel DiscSpec DiscProofs DiscProofs2 DiscProofs3 Disc2Model Disc2Spec Disc2Proofs.
From Verif Require Import ReconModel ReconSpec ReconProofs ReconProofs2 ReconProofs3.
From Verif Require Import TriModel TriSpec TriProofs TdiscModel TdiscSpec TreconModel TreconSpec TreconProofs Rec2Model Rec2Spec Rec2Proofs Rec2Proofs2.
Import ListNotations.
Open Scope R_scope.

Definition ts2 (s : Space2) (a b : bool) (W : nat -> nat -> R) (x y : R) : R :=
  rsum (seq 0 (size (pdeg (z1 s)) b)) (fun j => rsum (seq 0 (size (pdeg (z0 s)) a)) (fun i => W i j * (factor_fn (z0 s) (a, i) x * factor_fn (z1 s) (b, j) y))).
Lemma lim_ts2_x g s b W x y : basis2_of g s -> derivable_pt_lim (fun t => ts2 s false b W t y) x (ts2 s true b (fun i j => W (S i) j - W i j) x y).
Proof.
  intros ((_ & _ & D) & _). unfold ts2. apply (lim_rsum _ (fun j t => _)). intros j _.
  specialize (D (fun i => W i j * factor_fn (z1 s) (b, j) y) x).
  match goal with |- derivable_pt_lim _ _ ?l => match type of D with derivable_pt_lim _ _ ?l' => replace l with l' end end.
  - eapply lim_ext'; [|exact D]. intros t. apply rsum_ext. intros i _. unfold factor_fn at 2. cbn [fst snd]. ring.
  - apply rsum_ext. intros i _. unfold factor_fn at 3. cbn [fst snd]. ring.
Qed.
Lemma lim_ts2_y g s a W x y : basis2_of g s -> derivable_pt_lim (fun t => ts2 s a false W x t) y (ts2 s a true (fun i j => W i (S j) - W i j) x y).
Proof.
  intros (_ & (_ & _ & D)). unfold ts2.
  specialize (D (fun j => rsum (seq 0 (size (pdeg (z0 s)) a)) (fun i => W i j * factor_fn (z0 s) (a, i) x)) y).
  match goal with |- derivable_pt_lim _ _ ?l => match type of D with derivable_pt_lim _ _ ?l' => replace l with l' end end.
  - eapply lim_ext'; [|exact D]. intros t. apply rsum_ext. intros j _. rewrite rsum_scal_r. apply rsum_ext. intros i _. unfold factor_fn at 3. cbn [fst snd]. ring.
  - apply rsum_ext. intros j _. rewrite rsum_minus', rsum_scal_r. apply rsum_ext. intros i _. unfold factor_fn at 4. cbn [fst snd]. ring.
Qed.
Lemma ts2_ext s a b W W' x y : (forall i j, (i < size (pdeg (z0 s)) a)%nat -> (j < size (pdeg (z1 s)) b)%nat -> W i j = W' i j) -> ts2 s a b W x y = ts2 s a b W' x y.
Proof. intros H. unfold ts2. apply rsum_ext. intros j Hj. apply rsum_ext. intros i Hi. apply in_seq in Hi, Hj. rewrite H by lia. reflexivity. Qed.
Lemma ts2_scal s a b W k x y : ts2 s a b (fun i j => k * W i j) x y = k * ts2 s a b W x y.
Proof. unfold ts2. rewrite (Rmult_comm k), rsum_scal_r. apply rsum_ext. intros j _. rewrite rsum_scal_r. apply rsum_ext. intros. ring. Qed.
Lemma ts2_plus s a b W W' x y : ts2 s a b (fun i j => W i j + W' i j) x y = ts2 s a b W x y + ts2 s a b W' x y.
Proof. unfold ts2. rewrite rsum_plus'. apply rsum_ext. intros j _. rewrite rsum_plus'. apply rsum_ext. intros. ring. Qed.
(* ---------- the functions of cochains ---------- *)
Lemma hat0_ts s W x y : r2hat0 s (map W (cells (deg2 s) nodes2)) x y = ts2 s false false (fun i j => W [(false, i); (false, j)]) x y.
Proof.
  change x with (fst (x, y)) at 1. change y with (snd (x, y)) at 2. rewrite hat0_csum. unfold cells, nodes2. cbn [flat_map]. rewrite app_nil_r.
  exact (CT_sum s false false W (x, y)).
Qed.
Lemma hat2_ts s W x y : r2hat2 s (map W (cells (deg2 s) faces2)) x y = ts2 s true true (fun i j => W [(true, i); (true, j)]) x y.
Proof.
  change x with (fst (x, y)) at 1. change y with (snd (x, y)) at 2. rewrite hat2_csum. unfold cells, faces2. cbn [flat_map]. rewrite app_nil_r.
  exact (CT_sum s true true W (x, y)).
Qed.
Lemma firstn_at {A} (l m : list A) n : length l = n -> firstn n (l ++ m) = l /\ skipn n (l ++ m) = m.
Proof. intros <-. split; induction l as [|a l IH]; cbn; [reflexivity|f_equal; exact IH|reflexivity|exact IH]. Qed.
Lemma hat1_ts o s W d x y : r2hat1 o s (map W (cells (deg2 s) (edges2 o))) d x y = ts2 s (negb d) d (fun i j => W [(negb d, i); (d, j)]) x y.
Proof.
  rewrite edges_CE, map_app. assert (L : length (map W (CE s (ax o false))) = fst (r2num o s)) by (rewrite map_length; apply CE_first).
  destruct (firstn_at (map W (CE s (ax o false))) (map W (CE s (ax o true))) _ L) as [K1 K2].
  assert (d = ax o false \/ d = ax o true) as [E|E] by (destruct o, d; cbn [ax negb]; auto); rewrite E at 1; clear L.
  - rewrite (hat1_first o s _ (x, y)), K1. rewrite <- E. exact (CT_sum s (negb d) d W (x, y)).
  - rewrite (hat1_second o s _ (x, y)), K2. rewrite <- E. exact (CT_sum s (negb d) d W (x, y)).
Qed.

Definition inc10 (o : orient) (p : list nat) := match o with Inner => EI10 p | Outer => EO10 p end.
Definition inc21 (o : orient) (p : list nat) := match o with Inner => EI21 p | Outer => EO21 p end.
Ltac inb2 := cbn [inb sizes size]; rewrite !andb_true_iff, !Nat.ltb_lt; cbn [size] in *; lia.
Ltac row2r :=
  cbn [row_cells flat_map nth_error fst snd bump upd combine app nodes2 edges2_inner edges2_outer faces2 map];
  unfold bsum; cbn [fold_right fst snd]; rewrite ?(zmul_1 RRing), ?(zmul_m1 RRing);
  change (@RingSum.radd RRing) with Rplus; change (@RingSum.ropp RRing) with Ropp; change (@RingSum.r0 RRing) with 0; rewrite ?Nat.add_1_r.
Definition sg (o : orient) (d : bool) : R := IZR (match o with Outer => if d then 1 else -1 | Inner => 1 end).
Definition sg1 (o : orient) : R := match o with Outer => 1 | Inner => -1 end.
Lemma inc10_row o s E c u : inc10 o (deg2 s) = Some E -> length c = length (cells (deg2 s) nodes2) -> length u = length (cells (deg2 s) (edges2 o)) ->
  mat_times E c u -> exists W U : cell -> R, c = map W (cells (deg2 s) nodes2) /\ u = map U (cells (deg2 s) (edges2 o)) /\
  forall d i j, (i < size (pdeg (z0 s)) (negb d))%nat -> (j < size (pdeg (z1 s)) d)%nat ->
    U [(negb d, i); (d, j)] = sg o d * (if d then W [(false, i); (false, S j)] - W [(false, i); (false, j)] else W [(false, S i); (false, j)] - W [(false, i); (false, j)]).
Proof.
  unfold inc10, deg2, sg. intros HE Lc Lu M. destruct o; cbn [edges2] in *.
  - destruct (EO10_acts RRing (pdeg (z0 s)) (pdeg (z1 s))) as (E' & HE' & A). rewrite HE in HE'. injection HE' as <-.
    destruct (times_acts _ _ _ _ _ c u (nodes2_ok _ _) (edges2o_ok _ _) (tabO10_ok _ _) A Lc Lu M) as (W & U & -> & -> & Rw). exists W, U.
    split; [reflexivity|]. split; [reflexivity|]. intros [] i j Hi Hj; cbn [negb] in *.
    + change ([(false, i); (true, j)]) with (combine [false; true] [i; j]). rewrite (Rw 0%nat [false; true] _ [i; j] eq_refl eq_refl) by inb2. row2r. ring.
    + change ([(true, i); (false, j)]) with (combine [true; false] [i; j]). rewrite (Rw 1%nat [true; false] _ [i; j] eq_refl eq_refl) by inb2. row2r. ring.
  - destruct (EI10_acts RRing (pdeg (z0 s)) (pdeg (z1 s))) as (E' & HE' & A). rewrite HE in HE'. injection HE' as <-.
    destruct (times_acts _ _ _ _ _ c u (nodes2_ok _ _) (edges2i_ok _ _) (tabI10_ok _ _) A Lc Lu M) as (W & U & -> & -> & Rw). exists W, U.
    split; [reflexivity|]. split; [reflexivity|]. intros [] i j Hi Hj; cbn [negb] in *.
    + change ([(false, i); (true, j)]) with (combine [false; true] [i; j]). rewrite (Rw 1%nat [false; true] _ [i; j] eq_refl eq_refl) by inb2. row2r. ring.
    + change ([(true, i); (false, j)]) with (combine [true; false] [i; j]). rewrite (Rw 0%nat [true; false] _ [i; j] eq_refl eq_refl) by inb2. row2r. ring.
Qed.
Lemma inc21_row o s E c u : inc21 o (deg2 s) = Some E -> length c = length (cells (deg2 s) (edges2 o)) -> length u = length (cells (deg2 s) faces2) ->
  mat_times E c u -> exists W U : cell -> R, c = map W (cells (deg2 s) (edges2 o)) /\ u = map U (cells (deg2 s) faces2) /\
  forall i j, (i < pdeg (z0 s))%nat -> (j < pdeg (z1 s))%nat ->
    U [(true, i); (true, j)] = sg1 o * (W [(true, i); (false, S j)] - W [(true, i); (false, j)]) + (W [(false, S i); (true, j)] - W [(false, i); (true, j)]).
Proof.
  unfold inc21, deg2, sg1. intros HE Lc Lu M. destruct o; cbn [edges2] in *.
  - destruct (EO21_acts RRing (pdeg (z0 s)) (pdeg (z1 s))) as (E' & HE' & A). rewrite HE in HE'. injection HE' as <-.
    destruct (times_acts _ _ _ _ _ c u (edges2o_ok _ _) (faces2_ok _ _) (tabO21_ok _ _) A Lc Lu M) as (W & U & -> & -> & Rw). exists W, U.
    split; [reflexivity|]. split; [reflexivity|]. intros i j Hi Hj.
    change ([(true, i); (true, j)]) with (combine [true; true] [i; j]). rewrite (Rw 0%nat [true; true] _ [i; j] eq_refl eq_refl) by inb2. row2r. ring.
  - destruct (EI21_acts RRing (pdeg (z0 s)) (pdeg (z1 s))) as (E' & HE' & A). rewrite HE in HE'. injection HE' as <-.
    destruct (times_acts _ _ _ _ _ c u (edges2i_ok _ _) (faces2_ok _ _) (tabI21_ok _ _) A Lc Lu M) as (W & U & -> & -> & Rw). exists W, U.
    split; [reflexivity|]. split; [reflexivity|]. intros i j Hi Hj.
    change ([(true, i); (true, j)]) with (combine [true; true] [i; j]). rewrite (Rw 0%nat [true; true] _ [i; j] eq_refl eq_refl) by inb2. row2r. ring.
Qed.
Section Derivatives2.
Variables (g : Grid2) (s : Space2) (F : (R -> R -> R) * (R -> R -> R)) (J : R -> R -> (R * R) * (R * R)).
Hypothesis B : basis2_of g s.
Hypothesis HJ : jacobian2_of F J.
Theorem r2deriv0 o f G E c u : inc10 o (deg2 s) = Some E -> length c = length (cells (deg2 s) nodes2) -> length u = length (cells (deg2 s) (edges2 o)) -> mat_times E c u ->
  inside_square (fun x y => through2 f F x y = r2hat0 s c x y) ->
  inside_square (fun x y => has_grad2 f (fst F x y) (snd F x y)
    (match o with Inner => through2 (Disc2Spec.value2 G) F x y | Outer => (- snd (through2 (Disc2Spec.value2 G) F x y), fst (through2 (Disc2Spec.value2 G) F x y)) end)) ->
  inside_square (fun x y => field1 o s u J x y (through2 (Disc2Spec.value2 G) F x y)).
Proof.
  intros HE L L1 M H HG x y Hx Hy d. destruct (inc10_row o s E c u HE L L1 M) as (W & U & -> & -> & Rw).
  set (w := match o with Inner => through2 (Disc2Spec.value2 G) F x y | Outer => (- snd (through2 (Disc2Spec.value2 G) F x y), fst (through2 (Disc2Spec.value2 G) F x y)) end).
  destruct (through2_lim F J HJ f x y _ (HG x y Hx Hy)) as [Dx Dy]. fold w in Dx, Dy.
  assert (Ex : dot2 w (mcol (J x y) false) = ts2 s true false (fun i j => W [(false, S i); (false, j)] - W [(false, i); (false, j)]) x y).
  { eapply uniqueness_limite; [exact Dx|].
    eapply (derivable_pt_lim_locally_ext (fun t => ts2 s false false (fun i j => W [(false, i); (false, j)]) t y) _ _ (-1) 1); [exact Hx| |apply (lim_ts2_x g s false (fun i j => W [(false, i); (false, j)]) x y B)].
    intros t Ht. rewrite <- hat0_ts. symmetry. apply H; assumption. }
  assert (Ey : dot2 w (mcol (J x y) true) = ts2 s false true (fun i j => W [(false, i); (false, S j)] - W [(false, i); (false, j)]) x y).
  { eapply uniqueness_limite; [exact Dy|].
    eapply (derivable_pt_lim_locally_ext (fun t => ts2 s false false (fun i j => W [(false, i); (false, j)]) x t) _ _ (-1) 1); [exact Hy| |apply (lim_ts2_y g s false (fun i j => W [(false, i); (false, j)]) x y B)].
    intros t Ht. rewrite <- hat0_ts. symmetry. apply H; assumption. }
  rewrite hat1_ts. transitivity (sg o d * dot2 w (mcol (J x y) d)).
  { unfold w, sg. destruct o, d; unfold cross2, dot2; cbn [fst snd]; ring. }
  destruct d; [rewrite Ey|rewrite Ex]; rewrite <- ts2_scal; apply ts2_ext; intros i j Hi Hj; symmetry; [apply (Rw true)|apply (Rw false)]; assumption.
Qed.
Variable hxy : R -> R -> plane.
Hypothesis HM : mixed J hxy.
Theorem r2deriv1 o v D E c u : inc21 o (deg2 s) = Some E -> length c = length (cells (deg2 s) (edges2 o)) -> length u = length (cells (deg2 s) faces2) -> mat_times E c u ->
  inside_square (fun x y => field1 o s c J x y (through2 (Disc2Spec.value2 v) F x y)) ->
  inside_square (fun x y => has_grad2 (fst v) (fst F x y) (snd F x y) (fst (through2 D F x y)) /\ has_grad2 (snd v) (fst F x y) (snd F x y) (snd (through2 D F x y))) ->
  inside_square (fun x y => field2 s u J x y (through2 (match o with Inner => rot2 D | Outer => div2 D end) F x y)).
Proof.
  intros HE L L1 M H HD x y Hx Hy. destruct (inc21_row o s E c u HE L L1 M) as (W & U & -> & -> & Rw). destruct (HD x y Hx Hy) as [G0 G1].
  destruct (through2_lim F J HJ _ x y _ G0) as [V1 V2]. destruct (through2_lim F J HJ _ x y _ G1) as [V3 V4]. destruct (HM x y) as (A & A' & C & C').
  assert (Ex : forall l, derivable_pt_lim (fun t => match o with Inner => circ F J v true t y | Outer => flux F J v true t y end) x l ->
    l = ts2 s true true (fun i j => W [(false, S i); (true, j)] - W [(false, i); (true, j)]) x y).
  { intros l Dl. eapply uniqueness_limite; [exact Dl|].
    eapply (derivable_pt_lim_locally_ext (fun t => ts2 s false true (fun i j => W [(false, i); (true, j)]) t y) _ _ (-1) 1); [exact Hx| |exact (lim_ts2_x g s true (fun i j => W [(false, i); (true, j)]) x y B)].
    intros t Ht. specialize (H t y Ht Hy true). cbv beta in H; rewrite hat1_ts in H; cbn [negb] in H. destruct o; [rewrite <- H; apply Rmult_1_l|symmetry; exact H]. }
  assert (Ey : forall l, derivable_pt_lim (fun t => match o with Inner => circ F J v false x t | Outer => flux F J v false x t * -1 end) y l ->
    l = ts2 s true true (fun i j => W [(true, i); (false, S j)] - W [(true, i); (false, j)]) x y).
  { intros l Dl. eapply uniqueness_limite; [exact Dl|].
    eapply (derivable_pt_lim_locally_ext (fun t => ts2 s true false (fun i j => W [(true, i); (false, j)]) x t) _ _ (-1) 1); [exact Hy| |exact (lim_ts2_y g s true (fun i j => W [(true, i); (false, j)]) x y B)].
    intros t Ht. specialize (H x t Hx Ht false). cbv beta in H; rewrite hat1_ts in H; cbn [negb] in H. destruct o; [rewrite <- H; unfold flux; ring|symmetry; exact H]. }
  unfold field2, tpulls2. rewrite hat2_ts, (ts2_ext s true true _ (fun i j => sg1 o * (W [(true, i); (false, S j)] - W [(true, i); (false, j)]) + (W [(false, S i); (true, j)] - W [(false, i); (true, j)])))
    by (cbn [size]; exact Rw).
  rewrite (ts2_plus s true true (fun i j => sg1 o * (W [(true, i); (false, S j)] - W [(true, i); (false, j)]))), (ts2_scal s true true (fun i j => W [(true, i); (false, S j)] - W [(true, i); (false, j)])).
  destruct o.
  - pose proof (Ex _ (lim_minor _ _ _ _ _ _ _ _ _ V1 C' V3 A')) as E1.
    pose proof (derivable_pt_lim_mult (fun t => flux F J v false x t) (fun _ => -1) y _ _ (lim_minor _ _ _ _ _ _ _ _ _ V2 C V4 A) (derivable_pt_lim_const (-1) y)) as K.
    pose proof (Ey _ K) as E2. rewrite <- E1, <- E2. unfold div2, det2, cross2, flux, dot2, mcol, comp, through2, Disc2Spec.value2, sg1. cbn [fst snd]. ring.
  - pose proof (Ex _ (lim_dot2 _ _ _ _ _ _ _ _ _ A' C' V1 V3)) as E1. pose proof (Ey _ (lim_dot2 _ _ _ _ _ _ _ _ _ A C V2 V4)) as E2.
    rewrite <- E1, <- E2. unfold rot2, det2, cross2, dot2, mcol, comp, through2, sg1. cbn [fst snd]. ring.
Qed.
End Derivatives2.
