(* The dual coboundary: what it accepts, that it is determined by its weak form,
   constants, and applied twice. *)
From Coq Require Import Reals List Arith ZArith Lia Lra.
From Verif Require Import Prelude AssembleModel RingSum SpaceModel SpaceSpec SpaceProofs SpaceProofs2 SpaceProofs3 SpaceProofs5 SpaceProofs6 SpaceProofs9.
From Verif Require Import TfiModel CtModel CtSpec DiscModel DiscSpec DiscProofs2 DiscProofs3 ReconModel ReconSpec ReconProofs ReconProofs4 CrossModel CrossProofs CrossProofs2 TrfModel TrfSpec TrfProofs2 AdfModel AdfSpec AdfProofs.
Import ListNotations.
Open Scope R_scope.

Lemma all_some_inv {A B} (f : A -> option B) l r : all_some (map f l) = Some r -> Forall2 (fun a b => f a = Some b) l r.
Proof.
  revert r. induction l as [|a l IH]; intros r H; cbn [map all_some] in H; [injection H as <-; constructor|].
  destruct (f a) as [x|] eqn:E; [|discriminate]. destruct (all_some (map f l)) as [r'|] eqn:E'; [|discriminate]. injection H as <-.
  constructor; [exact E|apply IH; reflexivity].
Qed.
Lemma nth_unit m i j : (i < m)%nat -> nth j (map (fun k => if (k =? i)%nat then 1 else 0) (seq 0 m)) 0 = if (j =? i)%nat then 1 else 0.
Proof.
  intros H. destruct (Nat.lt_ge_cases j m) as [L|L]; [apply nth_map_seq; exact L|]. rewrite nth_overflow by (rewrite map_length, seq_length; exact L).
  destruct (Nat.eqb_spec j i); [lia|reflexivity].
Qed.
Lemma pairing_unit m i r : (i < m)%nat -> length r = m -> pairing (map (fun k => if (k =? i)%nat then 1 else 0) (seq 0 m)) r = nth i r 0.
Proof.
  intros H L. rewrite pairing_sq, L. transitivity (sq m (fun j => if (j =? i)%nat then nth i r 0 else 0)).
  - apply sq_ext. intros j _. rewrite nth_unit by exact H. destruct (Nat.eqb_spec j i) as [->|]; ring.
  - unfold sq. clear L. revert H. generalize (nth i r 0) as x. intros x. assert (A : forall a n, rsum (seq a n) (fun j => if (j =? i)%nat then x else 0) = if ((a <=? i) && (i <? a + n))%nat%bool then x else 0).
    { intros a n. revert a. induction n as [|n IH]; intros a; cbn [seq].
      - destruct (Nat.leb_spec a i); cbn [andb]; [|reflexivity]. destruct (Nat.ltb_spec i (a + 0)); [lia|reflexivity].
      - rewrite rsum_cons, IH. destruct (Nat.eqb_spec a i) as [->|D].
        + destruct (Nat.leb_spec (S i) i); [lia|]. cbn [andb]. rewrite Nat.leb_refl. destruct (Nat.ltb_spec i (i + S n)); [|lia]. cbn [andb]. ring.
        + destruct (Nat.leb_spec (S a) i), (Nat.leb_spec a i); try lia; cbn [andb]; try ring. replace (a + S n)%nat with (S a + n)%nat by lia. ring. }
    intros H. rewrite A. destruct (Nat.ltb_spec i (0 + m)); [|lia]. reflexivity.
Qed.
Lemma pairing_ext m r r' : length r = m -> length r' = m -> (forall v, length v = m -> pairing v r = pairing v r') -> r = r'.
Proof.
  intros L L' H. apply (nth_ext r r' 0 0); [congruence|]. intros i Hi. rewrite L in Hi. rewrite <- (pairing_unit m i r Hi L), <- (pairing_unit m i r' Hi L').
  apply H. rewrite map_length, seq_length. reflexivity.
Qed.
Lemma pairing_zero_l n r : (forall i, (i < length r)%nat -> nth i n 0 = 0) -> pairing n r = 0.
Proof. intros H. rewrite pairing_sq. unfold sq. apply rsum_zero'. intros i I. apply in_seq in I. rewrite H by lia. ring. Qed.
Lemma pairing_ones v n : length v = n -> pairing v (repeat 1 n) = sq n (fun i => nth i v 0).
Proof.
  intros L. rewrite pairing_sq, repeat_length. apply sq_ext. intros i Hi. rewrite (nth_indep (repeat 1 n) 0 1) by (rewrite repeat_length; exact Hi). rewrite nth_repeat. ring.
Qed.
Lemma ones_pairing n r : length r = n -> pairing (repeat 1 n) r = lsum r.
Proof.
  intros <-. rewrite pairing_sq. transitivity (sq (length r) (fun i => nth i r 0)).
  - apply sq_ext. intros i Hi. rewrite (nth_indep (repeat 1 _) 0 1) by (rewrite repeat_length; exact Hi). rewrite nth_repeat. ring.
  - unfold sq. induction r as [|x r IH]; [reflexivity|]. cbn [length seq]. rewrite rsum_cons. rewrite <- seq_shift, rsum_map. cbn [nth]. rewrite IH. reflexivity.
Qed.

Lemma some_eq {A} (a b : A) : Some a = Some b -> a = b.
Proof. congruence. Qed.
Section Weak.
Context (px py pz : nat) (Fp : Forall (fun n => (1 <= n)%nat) [px; py; pz]).
Let p := [px; py; pz].
Lemma d_exists k v : (k < 3)%nat -> exists u, is_d k p v u.
Proof.
  intros H. destruct (E_of px py pz k H) as (E & _ & RE). exists (mat_vec E v (length (form_cells (S k) p))).
  destruct (mat_vec_ok E v (length (form_cells (S k) p))) as (L & M). split; [exact L|]. exists E. split; [exact RE|exact M].
Qed.
Theorem weak_unique k d t r r' : (1 <= k <= 3)%nat -> weak_d k p d t r -> weak_d k p d t r' -> r = r'.
Proof.
  intros Hk (L & H) (L' & H'). apply (pairing_ext (length (form_cells (k - 1) p))); [exact L|exact L'|]. intros v Lv.
  destruct (d_exists (k - 1) v) as (u & Hu); [lia|]. rewrite (H v u _ Lv Hu eq_refl). symmetry. apply H'; [exact Lv|exact Hu|reflexivity].
Qed.
(* ---------- what it accepts ---------- *)
Lemma rows_pos k : (k <= 3)%nat -> (0 < length (form_cells k p))%nat.
Proof.
  intros H. inversion Fp as [|? ? P1 F1]. inversion F1 as [|? ? P2 F2]. inversion F2 as [|? ? P3 F3]. subst.
  destruct k as [|[|[|[|k]]]]; [..|lia]; pose proof (nb_form px py pz) as NB; unfold form_cells, form_types, p; cbn [cells flat_map nodes3 edges3 faces3 volumes3];
  rewrite ?app_length; destruct px as [|a]; try lia; destruct py as [|b]; try lia; destruct pz as [|c]; try lia; cbn; lia.
Qed.
Lemma step_lengths k d t E T r : (1 <= k <= 3)%nat -> dual_E k p = Some E -> dual_T k (k - 1) p = Some T -> dual_step E T d t = Some r ->
  length d = length (form_cells k p) /\ length t = length (trace_cells (k - 1) p).
Proof.
  intros Hk HE HT H. assert (SE : has_shape E (length (form_cells (k - 1) p)) (length (form_cells k p)) /\ has_shape T (length (form_cells (k - 1) p)) (length (trace_cells (k - 1) p))).
  { pose proof (nb_form px py pz 0 ltac:(lia)) as N0. pose proof (nb_form px py pz 1 ltac:(lia)) as N1. pose proof (nb_form px py pz 2 ltac:(lia)) as N2. pose proof (nb_form px py pz 3 ltac:(lia)) as N3.
    pose proof (ntrace_form px py pz Fp 0 ltac:(lia)) as T0. pose proof (ntrace_form px py pz Fp 1 ltac:(lia)) as T1. pose proof (ntrace_form px py pz Fp 2 ltac:(lia)) as T2.
    cbv beta iota in N0, N1, N2, N3, T0, T1, T2. fold p in N0, N1, N2, N3, T0, T1, T2.
    destruct k as [|[|[|[|k]]]]; try lia; cbn [Nat.sub] in HT |- *; unfold dual_E in HE; unfold dual_T in HT; cbv beta iota in HE, HT.
    - destruct (E10 p) as [e|]; [|discriminate]. destruct (trace0 outward p) as [x|]; [|discriminate]. cbn [option_map] in HE, HT. apply some_eq in HE, HT. subst E T. rewrite N0, N1, T0. split; [apply negative_shape|]; apply dense_shape.
    - destruct (E21 p) as [e|]; [|discriminate]. destruct (trace1 outward p) as [x|]; [|discriminate]. cbn [option_map] in HE, HT. apply some_eq in HE, HT. subst E T. rewrite N1, N2, T1. split; [|apply negative_shape]; apply dense_shape.
    - destruct (E32 p) as [e|]; [|discriminate]. destruct (trace2 outward p) as [x|]; [|discriminate]. cbn [option_map] in HE, HT. apply some_eq in HE, HT. subst E T. rewrite N3, N2, T2. split; [apply negative_shape|]; apply dense_shape. }
  destruct SE as (SE & ST). pose proof (rows_pos (k - 1) ltac:(lia)) as P. unfold dual_step in H. split.
  - destruct (Nat.eq_dec (length d) (length (form_cells k p))) as [|D]; [assumption|]. rewrite (matvec_bad E d _ _ SE P D) in H. discriminate.
  - destruct (Nat.eq_dec (length t) (length (trace_cells (k - 1) p))) as [|D]; [assumption|]. rewrite (matvec_bad T t _ _ ST P D) in H. destruct (matvec E d); discriminate.
Qed.
Lemma kinds k j E T : dual_E k p = Some E -> dual_T k j p = Some T -> (1 <= k <= 3)%nat /\ j = (k - 1)%nat.
Proof. intros HE HT. destruct k as [|[|[|[|k]]]]; try discriminate HE; destruct j as [|[|[|j]]]; try discriminate HT; lia. Qed.
Theorem coboundary_iff els k j DFC DTC : (exists l, dual_coboundary els p k j DFC DTC = Some l) <-> ((1 <= k <= 3)%nat /\ j = (k - 1)%nat /\ forall i, In i els -> fits k p DFC DTC i).
Proof.
  split.
  - intros (l & H). unfold dual_coboundary in H. destruct (dual_E k p) as [E|] eqn:HE; [|discriminate]. destruct (dual_T k j p) as [T|] eqn:HT; [|discriminate].
    destruct (kinds k j E T HE HT) as (Hk & ->). split; [exact Hk|]. split; [reflexivity|]. intros i I. destruct (all_some_in _ els l H i I) as (b & Hb & _).
    destruct (DFC i) as [d|] eqn:D1; [|discriminate]. destruct (DTC i) as [t|] eqn:D2; [|discriminate]. destruct (dual_step E T d t) as [r|] eqn:ST; [|discriminate].
    destruct (step_lengths k d t E T r Hk HE HT ST) as (A & B). exists d, t. auto.
  - intros (Hk & -> & H). unfold dual_coboundary. destruct (step_weak px py pz Fp k (repeat 0 (length (form_cells k p))) (repeat 0 (length (trace_cells (k - 1) p))) Hk) as (E & T & _ & HE & HT & _); [apply repeat_length..|].
    fold p in HE, HT. rewrite HE, HT. clear - H HE HT Hk Fp. induction els as [|i els IH]; [exists []; reflexivity|]. cbn [map all_some].
    destruct (H i (or_introl eq_refl)) as (d & t & D1 & D2 & Ld & Lt). rewrite D1, D2. destruct (step_weak px py pz Fp k d t Hk Ld Lt) as (E' & T' & r & HE' & HT' & HS & _).
    fold p in HE', HT'. rewrite HE in HE'. rewrite HT in HT'. injection HE' as <-. injection HT' as <-. rewrite HS. destruct IH as (l & ->); [intros; apply H; right; assumption|]. eexists. reflexivity.
Qed.
Theorem coboundary_ok els k j DFC DTC l : dual_coboundary els p k j DFC DTC = Some l -> map fst l = els /\
  forall i r, In (i, r) l -> exists d t, DFC i = Some d /\ DTC i = Some t /\ weak_d k p d t r.
Proof.
  intros H. unfold dual_coboundary in H. destruct (dual_E k p) as [E|] eqn:HE; [|discriminate]. destruct (dual_T k j p) as [T|] eqn:HT; [|discriminate].
  destruct (kinds k j E T HE HT) as (Hk & ->). apply all_some_inv in H. induction H as [|i (i', r) els l Hi HH IH]; [split; [reflexivity|intros ? ? []]|].
  destruct (DFC i) as [d|] eqn:D1; [|discriminate]. destruct (DTC i) as [t|] eqn:D2; [|discriminate]. destruct (dual_step E T d t) as [r'|] eqn:ST; [|discriminate]. injection Hi as <- <-.
  destruct IH as (IH1 & IH2). split; [cbn [map fst]; rewrite IH1; reflexivity|]. intros a b [Q|I]; [|apply IH2; exact I]. injection Q as <- <-.
  destruct (step_lengths k d t E T r' Hk HE HT ST) as (A & B). exists d, t. split; [exact D1|]. split; [exact D2|].
  destruct (step_weak px py pz Fp k d t Hk A B) as (E' & T' & r & HE' & HT' & HS & W). fold p in HE', HT', W. rewrite HE in HE'. rewrite HT in HT'. injection HE' as <-. injection HT' as <-. rewrite ST in HS. injection HS as <-. exact W.
Qed.
(* ---------- constants ---------- *)
Lemma mat_times_same E E' k v u : (k < 3)%nat -> realises E (form_cells (S k) p) (form_cells k p) orient3 orient3 -> realises E' (form_cells (S k) p) (form_cells k p) orient3 orient3 ->
  length v = length (form_cells k p) -> length u = length (form_cells (S k) p) -> mat_times E v u -> mat_times E' v u.
Proof.
  intros Hk A B Lv Lu H r Hr. rewrite (H r Hr). unfold apply_mat. apply (@bsum_ext RRing). intros c Hc. apply in_seq in Hc. rewrite (realises_same E E' _ _ orient3 orient3 A B r c); [reflexivity|lia|lia].
Qed.
Theorem weak_ones r : weak_d 3 p (repeat 1 (length (form_cells 3 p))) (repeat 1 (length (trace_cells 2 p))) r -> r = repeat 0 (length (form_cells 2 p)).
Proof.
  intros W. apply (weak_unique 3 _ _ _ _ ltac:(lia) W). split; [apply repeat_length|]. cbn [Nat.sub]. intros v u y Lv (Lu & E & RE & HU) HY.
  destruct (gauss3 RRing px py pz Fp) as (E' & T & HE' & HT & G). destruct (E_of px py pz 2 ltac:(lia)) as (E'' & HE'' & RE'). cbv beta iota in HE''. rewrite HE' in HE''. injection HE'' as <-.
  destruct (T_of px py pz Fp 2 ltac:(lia)) as (T' & HT' & RT). cbv beta iota in HT'. rewrite HT in HT'. injection HT' as <-.
  destruct (trace_times px py pz 2 v y T ltac:(lia) Lv HY RT) as (Ly & MT).
  assert (HU' := mat_times_same E E' 2 v u ltac:(lia) RE RE' Lv Lu HU).
  fold p in Ly. rewrite (pairing_ones u _ Lu), (pairing_ones y _ Ly). cbn [sign_E sign_T].
  assert (Z : pairing v (repeat 0 (length (form_cells 2 p))) = 0).
  { rewrite pairing_sq. unfold sq. apply rsum_zero'. intros i I. replace (nth i (repeat 0 _) 0) with 0; [ring|]. symmetry. destruct (Nat.lt_ge_cases i (length (form_cells 2 p))); [apply nth_repeat|apply nth_overflow; rewrite repeat_length; assumption]. }
  rewrite Z. assert (Q : sq (length (form_cells 3 p)) (fun i => nth i u 0) = sq (length (trace_cells 2 p)) (fun i => nth i y 0)).
  { specialize (G (fun c => nth c v 0)). rewrite !bsum_rsum in G. unfold sq. etransitivity; [|etransitivity; [exact G|]]; apply rsum_ext; intros i I; apply in_seq in I.
    - change (cells [px; py; pz] faces3) with (form_cells 2 p). rewrite <- Lv. apply HU'. rewrite Lu. exact (proj2 I).
    - symmetry. change (cells [px; py; pz] faces3) with (form_cells 2 p). rewrite <- Lv. apply MT. rewrite Ly. exact (proj2 I). }
  lra.
Qed.
Lemma d_ones u : is_d 0 p (repeat 1 (length (form_cells 0 p))) u -> forall i, nth i u 0 = 0.
Proof.
  intros (Lu & E & RE & HU) i. destruct (Nat.lt_ge_cases i (length u)) as [Hi|Hi]; [|apply nth_overflow; exact Hi].
  destruct (E_of px py pz 0 ltac:(lia)) as (E' & HE' & RE'). cbv beta iota in HE'. destruct (E10_acts RRing px py pz) as (E'' & HE'' & AE). rewrite HE' in HE''. injection HE'' as <-.
  assert (HU' := mat_times_same E E' 0 _ u ltac:(lia) RE RE' (repeat_length _ _) Lu HU).
  rewrite (HU' i Hi), repeat_length. rewrite Lu in Hi. destruct (nth_error (form_cells 1 p) i) as [s|] eqn:Es; [|apply nth_error_None in Es; lia].
  assert (ND := NoDup_cells p edges3 (edges3_ok px py pz)). rewrite <- (pos_eq (form_cells 1 p) s i ND Es).
  destruct (in_cells_ex p edges3 s (edges3_ok px py pz) (nth_error_In _ _ Es)) as (d & t & ix & Hd & -> & Li & Lt & Bi).
  assert (Htl : exists tl, nth_error tab10 d = Some tl) by (destruct d as [|[|[|d]]]; [eexists; reflexivity..|]; cbn in Hd; destruct d; discriminate). destruct Htl as (tl & Htl).
  etransitivity; [exact (AE d t tl ix Hd Htl Bi _)|].
  assert (ONE : forall c, In c (map fst (row_cells nodes3 tl ix)) -> nth (pos (cells [px; py; pz] nodes3) c) (repeat 1 (length (form_cells 0 p))) 0 = 1).
  { intros c Hc. assert (In c (cells p nodes3)).
    { destruct (cell_of p edges3 (edges3_ok px py pz) t ix (nth_error_In _ _ Hd) Bi) as (C1 & C2 & _). apply in_map_iff in Hc as ((c0, cv) & <- & Hc). exact (row_cells_in p nodes3 edges3 tab10 (nodes3_ok px py pz) (tab10_ok px py pz) d t tl ix Hd Htl C1 C2 c0 cv Hc). }
    rewrite (nth_indep _ 0 1); [apply nth_repeat|]. rewrite repeat_length. apply pos_lt. exact H. }
  rewrite (@bsum_ext RRing _ _ _ (fun cv => @zmul RRing (snd cv) 1)).
  2:{ intros cv Hcv. f_equal. apply ONE. apply in_map. exact Hcv. }
  clear - Li Hd Htl. destruct ix as [|i0 [|i1 [|i2 [|]]]]; try discriminate Li. destruct d as [|[|[|d]]]; cbn in Htl; try (destruct d; discriminate); injection Htl as <-;
    cbn [row_cells flat_map nth_error fst snd bump upd combine app nodes3 edges3 map]; rewrite ?bsum_cons, ?bsum_nil; cbn [fst snd]; rewrite !zmul_R; cbn; ring.
Qed.
(* ---------- twice ---------- *)
Lemma dd_zero k v u w : (k < 2)%nat -> length v = length (form_cells k p) -> is_d k p v u -> is_d (S k) p u w -> forall i, nth i w 0 = 0.
Proof.
  intros Hk Lv (Lu & E & RE & HU) (Lw & F & RF & HW) i. destruct (Nat.lt_ge_cases i (length w)) as [Hi|Hi]; [|apply nth_overflow; exact Hi].
  assert (DD : exists E' F', realises E' (form_cells (S k) p) (form_cells k p) orient3 orient3 /\ realises F' (form_cells (S (S k)) p) (form_cells (S k) p) orient3 orient3 /\
    forall (x : nat -> R) r, (r < length (form_cells (S (S k)) p))%nat -> @apply_mat RRing (length (form_cells (S k) p)) F' (@apply_mat RRing (length (form_cells k p)) E' x) r = 0).
  { destruct k as [|[|k]]; [| |lia].
    - destruct (dd_10 RRing px py pz) as (E' & F' & HE & HF & Z). exists E', F'. destruct (E_of px py pz 0 ltac:(lia)) as (a & Ha & Ra). destruct (E_of px py pz 1 ltac:(lia)) as (b & Hb & Rb). cbv beta iota in Ha, Hb. rewrite HE in Ha. rewrite HF in Hb. injection Ha as <-. injection Hb as <-. split; [exact Ra|]. split; [exact Rb|exact Z].
    - destruct (dd_21 RRing px py pz) as (E' & F' & HE & HF & Z). exists E', F'. destruct (E_of px py pz 1 ltac:(lia)) as (a & Ha & Ra). destruct (E_of px py pz 2 ltac:(lia)) as (b & Hb & Rb). cbv beta iota in Ha, Hb. rewrite HE in Ha. rewrite HF in Hb. injection Ha as <-. injection Hb as <-. split; [exact Ra|]. split; [exact Rb|exact Z]. }
  destruct DD as (E' & F' & RE' & RF' & Z).
  assert (HU' := mat_times_same E E' k v u ltac:(lia) RE RE' Lv Lu HU). assert (HW' := mat_times_same F F' (S k) u w ltac:(lia) RF RF' Lu Lw HW).
  rewrite (HW' i Hi). etransitivity; [|apply (Z (fun c => nth c v 0) i); rewrite Lw in Hi; exact Hi]. rewrite Lu. unfold apply_mat at 1 2. apply (@bsum_ext RRing). intros c Hc. apply in_seq in Hc.
  apply (f_equal (@zmul RRing _)). etransitivity; [apply (HU' c); lia|]. rewrite Lv. reflexivity.
Qed.
Theorem weak_twice k d t r t' r' : (2 <= k <= 3)%nat -> weak_d k p d t r -> weak_d (k - 1) p r t' r' ->
  forall v u, length v = length (form_cells (k - 2) p) -> is_d (k - 2) p v u -> forall y y', is_trace (k - 2) p v y -> is_trace (k - 1) p u y' ->
  pairing v r' = sign_E (k - 1) * sign_T k * pairing y' t + sign_T (k - 1) * pairing y t'.
Proof.
  intros Hk (Lr & H) (Lr' & H') v u Lv Hu y y' Hy Hy'. replace (k - 1 - 1)%nat with (k - 2)%nat in * by lia.
  rewrite (H' v u y Lv Hu Hy). destruct (d_exists (k - 1) u ltac:(lia)) as (w & Hw).
  assert (Lu : length u = length (form_cells (k - 1) p)) by (rewrite (proj1 Hu); f_equal; f_equal; lia).
  rewrite (H u w y' Lu Hw Hy'). rewrite (pairing_zero_l w d); [ring|]. intros i _.
  apply (dd_zero (k - 2) v u w ltac:(lia) Lv Hu). replace (S (k - 2)) with (k - 1)%nat by lia. exact Hw.
Qed.
Theorem weak_twice_same k d d1 t r r1 t' r' r1' : (2 <= k <= 3)%nat -> weak_d k p d t r -> weak_d k p d1 t r1 -> weak_d (k - 1) p r t' r' -> weak_d (k - 1) p r1 t' r1' -> r' = r1'.
Proof.
  intros Hk A A1 B B1. apply (pairing_ext (length (form_cells (k - 1 - 1) p))); [apply B|apply B1|]. intros v Lv. replace (k - 1 - 1)%nat with (k - 2)%nat in * by lia.
  destruct (d_exists (k - 2) v ltac:(lia)) as (u & Hu).
  rewrite (weak_twice k d t r t' r' Hk A B v u Lv Hu _ _ eq_refl eq_refl). symmetry. apply (weak_twice k d1 t r1 t' r1' Hk A1 B1 v u Lv Hu); reflexivity.
Qed.
End Weak.
