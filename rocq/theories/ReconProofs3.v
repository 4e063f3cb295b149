(* Derivatives of the reconstructed functions. *)
From Coq Require Import Reals List ZArith Lia Lra Bool.
From Coq Require Import Ranalysis5.
From Verif Require Import TfiModel TfiSpec TfiProofs CtModel CtSpec RingSum SpaceModel SpaceSpec SpaceProofs SpaceProofs2 SpaceProofs3.
From Verif Require Import DiscModel DiscSpec DiscProofs DiscProofs2 DiscProofs3 ReconModel ReconSpec ReconProofs ReconProofs2.
Import ListNotations.
Open Scope R_scope.

Definition deg3 (s : Space3) := (pdeg (s0 s), pdeg (s1 s), pdeg (s2 s)).
Definition tsum (s : Space3) (a b d : bool) (W : nat -> nat -> nat -> R) (x y z : R) : R :=
  rsum (seq 0 (size (pdeg (s2 s)) d)) (fun k => rsum (seq 0 (size (pdeg (s1 s)) b)) (fun j => rsum (seq 0 (size (pdeg (s0 s)) a)) (fun i =>
    W i j k * (factor_fn (s0 s) (a, i) x * factor_fn (s1 s) (b, j) y * factor_fn (s2 s) (d, k) z)))).
Lemma lim_rsum {A} (l : list A) (f : A -> R -> R) (f' : A -> R) x : (forall a, In a l -> derivable_pt_lim (f a) x (f' a)) ->
  derivable_pt_lim (fun t => rsum l (fun a => f a t)) x (rsum l f').
Proof.
  intros H. induction l as [|a l IH]; [apply derivable_pt_lim_const|]. cbn [rsum fold_right].
  apply (derivable_pt_lim_plus (f a) (fun t => rsum l (fun a => f a t))); [apply H; left; reflexivity|]. apply IH. intros b I. apply H. right. exact I.
Qed.
Lemma rsum_scal_r {A} (l : list A) f c : rsum l f * c = rsum l (fun a => f a * c).
Proof. induction l as [|a l IH]; cbn; [ring|]. fold (rsum l f) (rsum l (fun a => f a * c)). rewrite <- IH. ring. Qed.
Section Deriv.
Variables (g : Grid) (s : Space3).
Hypothesis B : basis3_of g s.
Lemma rsum_minus' {A} (l : list A) f h : rsum l f - rsum l h = rsum l (fun a => f a - h a).
Proof. symmetry. apply rsum_minus. Qed.
Lemma lim_tsum_x b d W x y z : derivable_pt_lim (fun t => tsum s false b d W t y z) x (tsum s true b d (fun i j k => W (S i) j k - W i j k) x y z).
Proof.
  unfold tsum. apply (lim_rsum _ (fun k t => _)). intros k _. apply (lim_rsum _ (fun j t => _)). intros j _.
  destruct B as ((_ & _ & D) & _). specialize (D (fun i => W i j k * (factor_fn (s1 s) (b, j) y * factor_fn (s2 s) (d, k) z)) x).
  match goal with |- derivable_pt_lim _ _ ?l => match type of D with derivable_pt_lim _ _ ?l' => replace l with l' end end.
  - eapply lim_ext'; [|exact D]. intros t. apply rsum_ext. intros i _. unfold factor_fn at 3. cbn [fst snd]. ring.
  - apply rsum_ext. intros i _. unfold factor_fn at 5. cbn [fst snd]. ring.
Qed.
Lemma lim_tsum_y a d W x y z : derivable_pt_lim (fun t => tsum s a false d W x t z) y (tsum s a true d (fun i j k => W i (S j) k - W i j k) x y z).
Proof.
  unfold tsum. apply (lim_rsum _ (fun k t => _)). intros k _.
  destruct B as (_ & (_ & _ & D) & _).
  specialize (D (fun j => rsum (seq 0 (size (pdeg (s0 s)) a)) (fun i => W i j k * (factor_fn (s0 s) (a, i) x * factor_fn (s2 s) (d, k) z))) y).
  match goal with |- derivable_pt_lim _ _ ?l => match type of D with derivable_pt_lim _ _ ?l' => replace l with l' end end.
  - eapply lim_ext'; [|exact D]. intros t. apply rsum_ext. intros j _. rewrite rsum_scal_r. apply rsum_ext. intros i _. unfold factor_fn at 4. cbn [fst snd]. ring.
  - apply rsum_ext. intros j _. rewrite rsum_minus', rsum_scal_r. apply rsum_ext. intros i _. unfold factor_fn at 6. cbn [fst snd]. ring.
Qed.
Lemma lim_tsum_z a b W x y z : derivable_pt_lim (fun t => tsum s a b false W x y t) z (tsum s a b true (fun i j k => W i j (S k) - W i j k) x y z).
Proof.
  unfold tsum. destruct B as (_ & _ & (_ & _ & D)).
  specialize (D (fun k => rsum (seq 0 (size (pdeg (s1 s)) b)) (fun j => rsum (seq 0 (size (pdeg (s0 s)) a)) (fun i => W i j k * (factor_fn (s0 s) (a, i) x * factor_fn (s1 s) (b, j) y)))) z).
  match goal with |- derivable_pt_lim _ _ ?l => match type of D with derivable_pt_lim _ _ ?l' => replace l with l' end end.
  - eapply lim_ext'; [|exact D]. intros t. apply rsum_ext. intros k _. rewrite rsum_scal_r. apply rsum_ext. intros j _. rewrite rsum_scal_r. apply rsum_ext.
    intros i _. unfold factor_fn at 5. cbn [fst snd]. ring.
  - apply rsum_ext. intros k _. rewrite rsum_minus', rsum_scal_r. apply rsum_ext. intros j _. rewrite rsum_minus', rsum_scal_r. apply rsum_ext.
    intros i _. unfold factor_fn at 7. cbn [fst snd]. ring.
Qed.
End Deriv.
(* ---------- the functions of cochains as triple sums ---------- *)
Definition c3 (a b d : bool) (i j k : nat) : cell := [(a, i); (b, j); (d, k)].
Lemma rsum_flat_map {A B} (h : A -> list B) l f : rsum (flat_map h l) f = rsum l (fun a => rsum (h a) f).
Proof. induction l as [|a l IH]; [reflexivity|]. cbn [flat_map]. rewrite rsum_app, IH. reflexivity. Qed.
Lemma rsum_cells_t s a b d f : rsum (cells_t (degrees s) [a; b; d]) f =
  rsum (seq 0 (size (pdeg (s2 s)) d)) (fun k => rsum (seq 0 (size (pdeg (s1 s)) b)) (fun j => rsum (seq 0 (size (pdeg (s0 s)) a)) (fun i => f (c3 a b d i j k)))).
Proof.
  unfold cells_t, degrees. cbn [sizes grid]. rewrite ReconProofs.rsum_map, rsum_flat_map, rsum_flat_map, rsum_flat_map. cbn [rsum fold_right]. rewrite Rplus_0_r.
  rewrite ReconProofs.rsum_map. apply rsum_ext. intros k _. rewrite ReconProofs.rsum_map. apply rsum_ext. intros j _. rewrite ReconProofs.rsum_map. apply rsum_ext. reflexivity.
Qed.
Lemma expand_map s ts sel W x y z : expand s ts sel (map W (cells (degrees s) ts)) x y z =
  rsum ts (fun t => rsum (cells_t (degrees s) t) (fun c => if sel c then W c * cell_fn s c x y z else 0)).
Proof.
  unfold expand. rewrite <- rsum_flat_map. change (flat_map (cells_t (degrees s)) ts) with (cells (degrees s) ts).
  induction (cells (degrees s) ts) as [|c l IH]; [reflexivity|]. cbn [map combine]. rewrite !rsum_cons. rewrite IH. reflexivity.
Qed.
Lemma tsum_0 s a b d W x y z : (forall i j k, W i j k = 0) -> tsum s a b d W x y z = 0.
Proof. intros H. unfold tsum. apply rsum_zero'. intros k _. apply rsum_zero'. intros j _. apply rsum_zero'. intros i _. rewrite H. ring. Qed.
Lemma sel_tsum s a b d (sel : cell -> bool) W x y z : rsum (cells_t (degrees s) [a; b; d]) (fun c => if sel c then W c * cell_fn s c x y z else 0) =
  tsum s a b d (fun i j k => if sel (c3 a b d i j k) then W (c3 a b d i j k) else 0) x y z.
Proof.
  rewrite rsum_cells_t. unfold tsum. apply rsum_ext. intros k _. apply rsum_ext. intros j _. apply rsum_ext. intros i _.
  destruct (sel (c3 a b d i j k)); [|ring]. unfold cell_fn, c3. ring.
Qed.
Lemma hat0_t s W x y z : hat0 s (map W (cells (degrees s) nodes3)) x y z = tsum s false false false (fun i j k => W (c3 false false false i j k)) x y z.
Proof. unfold hat0. rewrite expand_map. unfold nodes3. cbn [rsum fold_right]. rewrite Rplus_0_r. exact (sel_tsum s false false false (fun _ => true) W x y z). Qed.
Lemma hat3_t s W x y z : hat3 s (map W (cells (degrees s) volumes3)) x y z = tsum s true true true (fun i j k => W (c3 true true true i j k)) x y z.
Proof. unfold hat3. rewrite expand_map. unfold volumes3. cbn [rsum fold_right]. rewrite Rplus_0_r. exact (sel_tsum s true true true (fun _ => true) W x y z). Qed.
Lemma hat1_t s W c x y z : hat1 s (map W (cells (degrees s) edges3)) c x y z =
  tsum s (ceqb cX c) (ceqb cY c) (ceqb cZ c) (fun i j k => W (c3 (ceqb cX c) (ceqb cY c) (ceqb cZ c) i j k)) x y z.
Proof.
  unfold hat1. rewrite expand_map. unfold edges3. rewrite !rsum_cons, !sel_tsum. cbn [rsum fold_right].
  destruct c; cbn [ceqb along c3 map fst].
  - rewrite (tsum_0 s false true false), (tsum_0 s false false true) by reflexivity. ring.
  - rewrite (tsum_0 s true false false), (tsum_0 s false false true) by reflexivity. ring.
  - rewrite (tsum_0 s true false false), (tsum_0 s false true false) by reflexivity. ring.
Qed.
Lemma hat2_t s W c x y z : hat2 s (map W (cells (degrees s) faces3)) c x y z =
  tsum s (negb (ceqb cX c)) (negb (ceqb cY c)) (negb (ceqb cZ c)) (fun i j k => W (c3 (negb (ceqb cX c)) (negb (ceqb cY c)) (negb (ceqb cZ c)) i j k)) x y z.
Proof.
  unfold hat2. rewrite expand_map. unfold faces3. rewrite !rsum_cons, !sel_tsum. cbn [rsum fold_right].
  destruct c; cbn [ceqb negb normal c3 map fst].
  - rewrite (tsum_0 s true false true), (tsum_0 s true true false) by reflexivity. ring.
  - rewrite (tsum_0 s false true true), (tsum_0 s true true false) by reflexivity. ring.
  - rewrite (tsum_0 s false true true), (tsum_0 s true false true) by reflexivity. ring.
Qed.
(* ---------- cochains as functions of the cells ---------- *)
Lemma as_map cs (c : list R) : NoDup cs -> length c = length cs -> c = map (fun e => nth (SpaceProofs.pos cs e) c 0) cs.
Proof.
  intros N L. apply (list_nth_eq _ _ 0); [rewrite map_length; exact L|]. intros n Hn. rewrite L in Hn.
  destruct (nth_error cs n) as [e|] eqn:E; [|apply nth_error_None in E; lia].
  erewrite (nth_error_nth (map _ cs) n 0) by (rewrite nth_error_map, E; reflexivity). rewrite (pos_eq _ _ _ N E). reflexivity.
Qed.
Lemma times_acts p ss ds tab E (c u : list R) : types_ok p ss -> types_ok p ds -> tab_ok p ss ds tab -> acts RRing p ss ds tab E ->
  length c = length (cells p ss) -> length u = length (cells p ds) -> mat_times E c u ->
  exists W U : cell -> R, c = map W (cells p ss) /\ u = map U (cells p ds) /\
  forall d t tl i, nth_error ds d = Some t -> nth_error tab d = Some tl -> inb (sizes p t) i = true ->
     U (combine t i) = bsum (K := RRing) (row_cells ss tl i) (fun cv => zmul (K := RRing) (snd cv) (W (fst cv))).
Proof.
  intros Ts Td Tab A Lc Lu M. exists (fun e => nth (SpaceProofs.pos (cells p ss) e) c 0), (fun e => nth (SpaceProofs.pos (cells p ds) e) u 0).
  split; [apply as_map; [apply NoDup_cells; exact Ts|exact Lc]|].
  split; [apply as_map; [apply NoDup_cells; exact Td|exact Lu]|]. intros d t tl i Hd Htl Hi.
  destruct (cell_of p ds Td t i (nth_error_In _ _ Hd) Hi) as (C1 & C2 & C3).
  rewrite M.
  - rewrite Lc. apply (A d t tl i Hd Htl Hi).
  - rewrite Lu. apply pos_lt. exact C3.
Qed.
Lemma tsum_ext s a b d W W' x y z :
  (forall i j k, (i < size (pdeg (s0 s)) a)%nat -> (j < size (pdeg (s1 s)) b)%nat -> (k < size (pdeg (s2 s)) d)%nat -> W i j k = W' i j k) ->
  tsum s a b d W x y z = tsum s a b d W' x y z.
Proof.
  intros H. unfold tsum. apply rsum_ext. intros k Ik. apply rsum_ext. intros j Ij. apply rsum_ext. intros i Ii. apply in_seq in Ik, Ij, Ii.
  rewrite H by lia. reflexivity.
Qed.
Lemma tsum_minus s a b d W W' x y z : tsum s a b d W x y z - tsum s a b d W' x y z = tsum s a b d (fun i j k => W i j k - W' i j k) x y z.
Proof.
  unfold tsum. rewrite rsum_minus'. apply rsum_ext. intros k _. rewrite rsum_minus'. apply rsum_ext. intros j _. rewrite rsum_minus'. apply rsum_ext. intros i _. ring.
Qed.
Lemma rsum_plus' {A} (l : list A) f h : rsum l f + rsum l h = rsum l (fun a => f a + h a).
Proof. symmetry. apply rsum_plus. Qed.
Lemma tsum_plus s a b d W W' x y z : tsum s a b d W x y z + tsum s a b d W' x y z = tsum s a b d (fun i j k => W i j k + W' i j k) x y z.
Proof.
  unfold tsum. rewrite rsum_plus'. apply rsum_ext. intros k _. rewrite rsum_plus'. apply rsum_ext. intros j _. rewrite rsum_plus'. apply rsum_ext. intros i _. ring.
Qed.
(* l is the derivative of h along the axis a *)
Definition dalong (h : R -> R -> R -> R) (a : coord) (x y z l : R) : Prop :=
  match a with
  | cX => derivable_pt_lim (fun t => h t y z) x l
  | cY => derivable_pt_lim (fun t => h x t z) y l
  | cZ => derivable_pt_lim (fun t => h x y t) z l
  end.
Lemma dalong_ext h h' a x y z l : (forall x y z, h x y z = h' x y z) -> dalong h a x y z l -> dalong h' a x y z l.
Proof. intros H D. destruct a; cbn [dalong] in *; (eapply lim_ext'; [|exact D]; intros; apply H). Qed.
Lemma dalong_inside h h' a x y z l : inside_element (fun x y z => h x y z = h' x y z) -> -1 < x < 1 -> -1 < y < 1 -> -1 < z < 1 ->
  dalong h a x y z l -> dalong h' a x y z l.
Proof.
  intros H X Y Z D. destruct a; cbn [dalong] in *;
    (eapply (derivable_pt_lim_locally_ext _ _ _ (-1) 1); [eassumption| |exact D]; intros; apply H; assumption).
Qed.
Lemma dalong_unique h a x y z l l' : dalong h a x y z l -> dalong h a x y z l' -> l = l'.
Proof. destruct a; cbn [dalong]; intros A A'; eapply uniqueness_limite; eassumption. Qed.
Ltac row3 Hi :=
  cbn [row_cells flat_map nth_error fst snd bump upd combine app nodes3 edges3 faces3 volumes3 map];
  unfold bsum; cbn [fold_right fst snd]; rewrite ?(zmul_1 RRing), ?(zmul_m1 RRing);
  change (@radd RRing) with Rplus; change (@ropp RRing) with Ropp; change (@r0 RRing) with 0; rewrite ?Nat.add_1_r.
Section Hats.
Variables (g : Grid) (s : Space3).
Hypothesis B : basis3_of g s.
Ltac inb_t := cbn [inb sizes size]; rewrite !andb_true_iff, !Nat.ltb_lt; cbn [size] in *; lia.
Lemma hat_grad E c u : E10 (degrees s) = Some E -> length c = length (cells (degrees s) nodes3) -> length u = length (cells (degrees s) edges3) ->
  mat_times E c u -> forall a x y z, dalong (hat0 s c) a x y z (hat1 s u a x y z).
Proof.
  intros HE Lc Lu M a x y z. destruct (E10_acts RRing (pdeg (s0 s)) (pdeg (s1 s)) (pdeg (s2 s))) as (E' & HE' & A). unfold degrees in HE.
  rewrite HE in HE'. injection HE' as <-.
  destruct (times_acts _ _ _ _ _ c u (nodes3_ok _ _ _) (edges3_ok _ _ _) (tab10_ok _ _ _) A Lc Lu M) as (W & U & -> & -> & Rw). clear M Lc Lu.
  eapply dalong_ext; [intros; symmetry; apply hat0_t|]. rewrite (hat1_t s U). destruct a; cbn [ceqb dalong].
  - erewrite tsum_ext; [apply (lim_tsum_x g s B)|]. intros i j k Hi Hj Hk. cbn beta.
    change (c3 true false false i j k) with (combine [true; false; false] [i; j; k]). rewrite (Rw 0%nat [true; false; false] _ [i; j; k] eq_refl eq_refl) by inb_t.
    row3 Hi. unfold c3. ring.
  - erewrite tsum_ext; [apply (lim_tsum_y g s B)|]. intros i j k Hi Hj Hk. cbn beta.
    change (c3 false true false i j k) with (combine [false; true; false] [i; j; k]). rewrite (Rw 1%nat [false; true; false] _ [i; j; k] eq_refl eq_refl) by inb_t.
    row3 Hi. unfold c3. ring.
  - erewrite tsum_ext; [apply (lim_tsum_z g s B)|]. intros i j k Hi Hj Hk. cbn beta.
    change (c3 false false true i j k) with (combine [false; false; true] [i; j; k]). rewrite (Rw 2%nat [false; false; true] _ [i; j; k] eq_refl eq_refl) by inb_t.
    row3 Hi. unfold c3. ring.
Qed.
Lemma hat_curl E c u : E21 (degrees s) = Some E -> length c = length (cells (degrees s) edges3) -> length u = length (cells (degrees s) faces3) ->
  mat_times E c u -> forall a x y z, exists l l',
    dalong (hat1 s c (next (next a))) (next a) x y z l /\ dalong (hat1 s c (next a)) (next (next a)) x y z l' /\ hat2 s u a x y z = l - l'.
Proof.
  intros HE Lc Lu M a x y z. destruct (E21_acts RRing (pdeg (s0 s)) (pdeg (s1 s)) (pdeg (s2 s))) as (E' & HE' & A). unfold degrees in HE.
  rewrite HE in HE'. injection HE' as <-.
  destruct (times_acts _ _ _ _ _ c u (edges3_ok _ _ _) (faces3_ok _ _ _) (tab21_ok _ _ _) A Lc Lu M) as (W & U & -> & -> & Rw). clear M Lc Lu.
  rewrite (hat2_t s U). destruct a; cbn [ceqb negb next].
  - eexists; eexists. split; [|split].
    + eapply dalong_ext; [intros; symmetry; apply (hat1_t s W)|]. cbn [ceqb dalong]. apply (lim_tsum_y g s B).
    + eapply dalong_ext; [intros; symmetry; apply (hat1_t s W)|]. cbn [ceqb dalong]. apply (lim_tsum_z g s B).
    + rewrite tsum_minus. apply tsum_ext. intros i j k Hi Hj Hk. cbn beta.
      change (c3 false true true i j k) with (combine [false; true; true] [i; j; k]). rewrite (Rw 0%nat [false; true; true] _ [i; j; k] eq_refl eq_refl) by inb_t.
      row3 Hi. unfold c3. ring.
  - eexists; eexists. split; [|split].
    + eapply dalong_ext; [intros; symmetry; apply (hat1_t s W)|]. cbn [ceqb dalong]. apply (lim_tsum_z g s B).
    + eapply dalong_ext; [intros; symmetry; apply (hat1_t s W)|]. cbn [ceqb dalong]. apply (lim_tsum_x g s B).
    + rewrite tsum_minus. apply tsum_ext. intros i j k Hi Hj Hk. cbn beta.
      change (c3 true false true i j k) with (combine [true; false; true] [i; j; k]). rewrite (Rw 1%nat [true; false; true] _ [i; j; k] eq_refl eq_refl) by inb_t.
      row3 Hi. unfold c3. ring.
  - eexists; eexists. split; [|split].
    + eapply dalong_ext; [intros; symmetry; apply (hat1_t s W)|]. cbn [ceqb dalong]. apply (lim_tsum_x g s B).
    + eapply dalong_ext; [intros; symmetry; apply (hat1_t s W)|]. cbn [ceqb dalong]. apply (lim_tsum_y g s B).
    + rewrite tsum_minus. apply tsum_ext. intros i j k Hi Hj Hk. cbn beta.
      change (c3 true true false i j k) with (combine [true; true; false] [i; j; k]). rewrite (Rw 2%nat [true; true; false] _ [i; j; k] eq_refl eq_refl) by inb_t.
      row3 Hi. unfold c3. ring.
Qed.
Lemma hat_div E c u : E32 (degrees s) = Some E -> length c = length (cells (degrees s) faces3) -> length u = length (cells (degrees s) volumes3) ->
  mat_times E c u -> forall x y z, exists lx ly lz,
    dalong (hat2 s c cX) cX x y z lx /\ dalong (hat2 s c cY) cY x y z ly /\ dalong (hat2 s c cZ) cZ x y z lz /\ hat3 s u x y z = lx + ly + lz.
Proof.
  intros HE Lc Lu M x y z. destruct (E32_acts RRing (pdeg (s0 s)) (pdeg (s1 s)) (pdeg (s2 s))) as (E' & HE' & A). unfold degrees in HE.
  rewrite HE in HE'. injection HE' as <-.
  destruct (times_acts _ _ _ _ _ c u (faces3_ok _ _ _) (volumes3_ok _ _ _) (tab32_ok _ _ _) A Lc Lu M) as (W & U & -> & -> & Rw). clear M Lc Lu.
  rewrite (hat3_t s U). eexists; eexists; eexists. split; [|split; [|split]].
  + eapply dalong_ext; [intros; symmetry; apply (hat2_t s W)|]. cbn [ceqb negb dalong]. apply (lim_tsum_x g s B).
  + eapply dalong_ext; [intros; symmetry; apply (hat2_t s W)|]. cbn [ceqb negb dalong]. apply (lim_tsum_y g s B).
  + eapply dalong_ext; [intros; symmetry; apply (hat2_t s W)|]. cbn [ceqb negb dalong]. apply (lim_tsum_z g s B).
  + rewrite !tsum_plus. apply tsum_ext. intros i j k Hi Hj Hk. cbn beta.
    change (c3 true true true i j k) with (combine [true; true; true] [i; j; k]). rewrite (Rw 0%nat [true; true; true] _ [i; j; k] eq_refl eq_refl) by inb_t.
    row3 Hi. unfold c3. ring.
Qed.

(* ---------- fields ---------- *)
Variables (F : coord -> R -> R -> R -> R) (J : R -> R -> R -> mat3) (H : coord -> coord -> coord -> R -> R -> R -> R).
Hypothesis HJ : jacobian_of F J.
Theorem recon_grad f G E c u : E10 (degrees s) = Some E -> length c = length (cells (degrees s) nodes3) -> length u = length (cells (degrees s) edges3) ->
  mat_times E c u -> grad_inside F f G -> inside_element (fun x y z => through f F x y z = hat0 s c x y z) ->
  inside_element (fun x y z => pulls1 (J x y z) (through (value G) F x y z) (fun d => hat1 s u d x y z)).
Proof.
  intros HE Lc Lu M HG Hf x y z X Y Z d. assert (D := hat_grad E c u HE Lc Lu M d x y z).
  assert (D' : dalong (through f F) d x y z (dot (through (value G) F x y z) (col (J x y z) d))).
  { destruct (through_lim F J f x y z _ HJ (HG x y z X Y Z)) as (A0 & A1 & A2). destruct d; assumption. }
  rewrite dot_comm. eapply dalong_unique; [|exact D]. eapply dalong_inside; [exact Hf|exact X|exact Y|exact Z|exact D'].
Qed.
Hypothesis HH : second_derivs J H.
Theorem recon_curl v D E c u : E21 (degrees s) = Some E -> length c = length (cells (degrees s) edges3) -> length u = length (cells (degrees s) faces3) ->
  mat_times E c u -> deriv_inside F v D ->
  inside_element (fun x y z => pulls1 (J x y z) (through (value v) F x y z) (fun d => hat1 s c d x y z)) ->
  inside_element (fun x y z => pulls2 (J x y z) (through (value (curl_field D)) F x y z) (fun d => hat2 s u d x y z)).
Proof.
  intros HE Lc Lu M HD Hv x y z X Y Z d. destruct (hat_curl E c u HE Lc Lu M d x y z) as (l & l' & D1 & D2 & ->).
  change (pull2 F J (curl_field D) d x y z = l - l'). rewrite (pull2_curl F J H HH v D).
  assert (P : forall a b, dalong (hat1 s c a) b x y z (dpull1 F J H v D a b x y z)).
  { intros a b. apply (dalong_inside (pull1 F J v a)); try assumption.
    - intros x' y' z' X' Y' Z'. apply (Hv x' y' z' X' Y' Z' a).
    - destruct (dpull1_ok F J HJ H HH v D a x y z (HD x y z X Y Z)) as (A0 & A1 & A2). destruct b; assumption. }
  f_equal; eapply dalong_unique; try eassumption; apply P.
Qed.
Theorem recon_div v D E c u : E32 (degrees s) = Some E -> length c = length (cells (degrees s) faces3) -> length u = length (cells (degrees s) volumes3) ->
  mat_times E c u -> deriv_inside F v D ->
  inside_element (fun x y z => pulls2 (J x y z) (through (value v) F x y z) (fun d => hat2 s c d x y z)) ->
  inside_element (fun x y z => pulls3 (J x y z) (through (div_field D) F x y z) (hat3 s u x y z)).
Proof.
  intros HE Lc Lu M HD Hv x y z X Y Z. destruct (hat_div E c u HE Lc Lu M x y z) as (lx & ly & lz & D1 & D2 & D3 & ->).
  change (pull3 F J (div_field D) x y z = lx + ly + lz). rewrite (pull3_div F J H HH v D).
  assert (P : forall a b, dalong (hat2 s c a) b x y z (dpull2 F J H v D a b x y z)).
  { intros a b. apply (dalong_inside (pull2 F J v a)); try assumption.
    - intros x' y' z' X' Y' Z'. apply (Hv x' y' z' X' Y' Z' a).
    - destruct (dpull2_ok F J HJ H HH v D a x y z (HD x y z X Y Z)) as (A0 & A1 & A2). destruct b; assumption. }
  f_equal; [f_equal|]; eapply dalong_unique; try eassumption; apply P.
Qed.
End Hats.
