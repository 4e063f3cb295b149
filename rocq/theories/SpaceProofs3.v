(** The coboundary applied twice is zero. *)
From Coq Require Import List Arith ZArith Lia Bool Ring.
From Verif Require Import Prelude PreludeProofs RingSum SpaceModel SpaceSpec SpaceProofs SpaceProofs2.
Import ListNotations.

Lemma map_pos cs : NoDup cs -> map (pos cs) cs = seq 0 (length cs).
Proof.
  intros N. apply list_ext_nth_error. intros i. rewrite nth_error_map.
  destruct (nth_error cs i) as [c|] eqn:E; cbn [option_map].
  - rewrite (pos_eq cs c i N E). symmetry. assert (i < length cs) by (apply nth_error_Some; congruence).
    rewrite (nth_error_nth' _ 0) by (rewrite seq_length; lia). rewrite seq_nth by lia. reflexivity.
  - symmetry. apply nth_error_None. rewrite seq_length. apply nth_error_None. assumption.
Qed.
Lemma lastc_notin l c d : ~ In c (map fst l) -> lastc l c d = d.
Proof.
  revert d. induction l as [|[x v] l IH]; intros d H; [reflexivity|]. cbn [lastc].
  cbn [map fst] in H. destruct (cell_eqb x c) eqn:E.
  - apply cell_eqb_eq in E. exfalso. apply H. left. assumption.
  - apply IH. intros Hc. apply H. right. assumption.
Qed.
Section Act.
  Variable K : CRing.
  Add Ring Kr3 : (Rth K).
  Local Open Scope ring_s.
  Lemma bsum_pos cs (f : nat -> K) : NoDup cs -> bsum (seq 0 (length cs)) f = bsum cs (fun t => f (pos cs t)).
  Proof. intros N. rewrite <- (map_pos cs N). apply bsum_map. Qed.
  Lemma bsum_lastc cs l d (U : cell -> K) : NoDup cs -> NoDup (map fst l) -> (forall c v, In (c, v) l -> In c cs) ->
    bsum cs (fun c => zmul (lastc l c d) (U c)) =
    bsum cs (fun c => zmul d (U c)) + bsum l (fun cv => zmul (snd cv) (U (fst cv)) - zmul d (U (fst cv))).
  Proof.
    intros N. revert d. induction l as [|[x v] l IH]; intros d Nl Hin.
    - rewrite bsum_nil. cbn [lastc]. ring.
    - cbn [map fst] in Nl. inversion Nl as [|? ? Nx Nl']; subst. rewrite bsum_cons. cbn [fst snd lastc].
      assert (Hx : In x cs) by (eapply Hin; left; reflexivity).
      transitivity (bsum cs (fun c => zmul (lastc l c d) (U c)) + (zmul v (U x) - zmul d (U x))).
      + rewrite (bsum_ext _ cs _ (fun c => zmul (lastc l c d) (U c) +
            (if (if cell_eqb x c then true else false) then zmul v (U x) - zmul d (U x) else 0))).
        * rewrite bsum_plus. f_equal.
          rewrite (bsum_only _ cs x); [|assumption|assumption|].
          -- assert (cell_eqb x x = true) as -> by (apply cell_eqb_eq; reflexivity). reflexivity.
          -- intros a _ Ha. destruct (cell_eqb x a) eqn:E; [|reflexivity]. apply cell_eqb_eq in E. congruence.
        * intros c _. destruct (cell_eqb x c) eqn:E; [|ring]. apply cell_eqb_eq in E. subst.
          rewrite !lastc_notin by assumption. ring.
      + rewrite IH by (auto; intros; eapply Hin; right; eassumption). ring.
  Qed.
  Lemma apply_row cs l (M : nat -> nat -> Z) (u : nat -> K) r : NoDup cs -> NoDup (map fst l) ->
    (forall c v, In (c, v) l -> In c cs) ->
    (forall c, In c cs -> M r (pos cs c) = lastc l c 0) ->
    apply_mat (length cs) M u r = bsum l (fun cv => zmul (snd cv) (u (pos cs (fst cv)))).
  Proof.
    intros N Nl Hin HM. unfold apply_mat. rewrite bsum_pos by assumption.
    rewrite (bsum_ext _ cs _ (fun c => zmul (lastc l c 0) (u (pos cs c)))).
    - rewrite (bsum_lastc cs l 0%Z (fun c => u (pos cs c))) by assumption.
      rewrite bsum_0 by reflexivity. rewrite (bsum_ext _ l _ (fun cv => zmul (snd cv) (u (pos cs (fst cv))))); [ring|].
      intros a _. cbn [zmul]. ring.
    - intros c Hc. rewrite HM by assumption. reflexivity.
  Qed.
  Lemma zmul_1 (x : K) : zmul 1 x = x.
  Proof. unfold zmul. change (Pos.to_nat 1) with 1%nat. cbn [nmul]. ring. Qed.
  Lemma zmul_m1 (x : K) : zmul (-1) x = - x.
  Proof. unfold zmul. change (Pos.to_nat 1) with 1%nat. cbn [nmul]. ring. Qed.
End Act.

(** rows of the concrete matrices act as explicit differences *)
Definition acts (K : CRing) (p : list nat) (ss ds : list ctype) (tab : list (list line)) (E : nat -> nat -> Z) : Prop :=
  forall d t tl i, nth_error ds d = Some t -> nth_error tab d = Some tl -> inb (sizes p t) i = true ->
  forall u : nat -> K, apply_mat (length (cells p ss)) E u (pos (cells p ds) (combine t i)) =
  bsum (row_cells ss tl i) (fun cv => zmul (snd cv) (u (pos (cells p ss) (fst cv)))).
Lemma acts_ok (K : CRing) p ss ds tab : types_ok p ss -> types_ok p ds -> tab_ok p ss ds tab ->
  (forall d tl i, nth_error tab d = Some tl -> length i = length p -> NoDup (map fst (row_cells ss tl i))) ->
  exists E, incidence (map (sizes p) ss) (map (sizes p) ds) tab = Some E /\ acts K p ss ds tab E.
Proof.
  intros Ts Td Tab Hn. destruct (incidence_ok p ss ds tab Ts Td Tab) as (E & HE & H). exists E. split; [assumption|].
  intros d t tl i Hd Htl Hi u.
  assert (C := cell_of p ds Td t i (nth_error_In _ _ Hd) Hi). destruct C as (C1 & C2 & C3).
  apply apply_row.
  - apply NoDup_cells. assumption.
  - eapply Hn; eassumption.
  - exact (row_cells_in p ss ds tab Ts Tab d t tl i Hd Htl C1 C2).
  - intros c Hc. apply (H d t tl i Hd Htl Hi c Hc).
Qed.
Ltac nd3_t :=
  intros d tl i Htl Li; destruct i as [|i0 [|i1 [|i2 [|]]]]; try discriminate Li;
  destruct d as [|[|[|d]]]; cbn in Htl; try discriminate; try (destruct d; discriminate); injection Htl as <-;
  cbn [row_cells flat_map nth_error fst snd bump upd combine app nodes3 edges3 faces3 volumes3 map];
  repeat constructor; cbn [In]; intros H; repeat (destruct H as [H|H]); try contradiction; try discriminate H;
  injection H; intros; lia.
Ltac nd2_t :=
  intros d tl i Htl Li; destruct i as [|i0 [|i1 [|]]]; try discriminate Li;
  destruct d as [|[|d]]; cbn in Htl; try discriminate; try (destruct d; discriminate); injection Htl as <-;
  cbn [row_cells flat_map nth_error fst snd bump upd combine app nodes2 edges2_inner edges2_outer faces2 map];
  repeat constructor; cbn [In]; intros H; repeat (destruct H as [H|H]); try contradiction; try discriminate H;
  injection H; intros; lia.
Lemma E10_acts K px py pz : exists E, E10 [px; py; pz] = Some E /\ acts K [px; py; pz] nodes3 edges3 tab10 E.
Proof.
  unfold E10. rewrite shapes0_3, shapes1_3.
  apply acts_ok; [apply nodes3_ok|apply edges3_ok|apply tab10_ok|nd3_t].
Qed.
Lemma E21_acts K px py pz : exists E, E21 [px; py; pz] = Some E /\ acts K [px; py; pz] edges3 faces3 tab21 E.
Proof.
  unfold E21. rewrite shapes1_3, shapes2_3.
  apply acts_ok; [apply edges3_ok|apply faces3_ok|apply tab21_ok|nd3_t].
Qed.
Lemma E32_acts K px py pz : exists E, E32 [px; py; pz] = Some E /\ acts K [px; py; pz] faces3 volumes3 tab32 E.
Proof.
  unfold E32. rewrite shapes2_3, shapes3_3.
  apply acts_ok; [apply faces3_ok|apply volumes3_ok|apply tab32_ok|nd3_t].
Qed.
Lemma EI10_acts K px py : exists E, EI10 [px; py] = Some E /\ acts K [px; py] nodes2 edges2_inner tabI10 E.
Proof.
  unfold EI10. rewrite shapes0_2, shapes1_2.
  apply acts_ok; [apply nodes2_ok|apply edges2i_ok|apply tabI10_ok|nd2_t].
Qed.
Lemma EI21_acts K px py : exists E, EI21 [px; py] = Some E /\ acts K [px; py] edges2_inner faces2 tabI21 E.
Proof.
  unfold EI21. rewrite shapes1_2, shapes3_2.
  apply acts_ok; [apply edges2i_ok|apply faces2_ok|apply tabI21_ok|nd2_t].
Qed.
Lemma EO10_acts K px py : exists E, EO10 [px; py] = Some E /\ acts K [px; py] nodes2 edges2_outer tabO10 E.
Proof.
  unfold EO10. rewrite shapes0_2, shapes2_2.
  apply acts_ok; [apply nodes2_ok|apply edges2o_ok|apply tabO10_ok|nd2_t].
Qed.
Lemma EO21_acts K px py : exists E, EO21 [px; py] = Some E /\ acts K [px; py] edges2_outer faces2 tabO21 E.
Proof.
  unfold EO21. rewrite shapes2_2, shapes3_2.
  apply acts_ok; [apply edges2o_ok|apply faces2_ok|apply tabO21_ok|nd2_t].
Qed.

(** two steps *)
Lemma acts_twice (K : CRing) p ss ms ds t1 t2 E F : types_ok p ss -> types_ok p ms -> types_ok p ds ->
  tab_ok p ms ds t2 -> tab_ok p ss ms t1 ->
  acts K p ss ms t1 E -> acts K p ms ds t2 F ->
  (forall d t tl i, nth_error ds d = Some t -> nth_error t2 d = Some tl -> length i = length p -> inb (sizes p t) i = true ->
    forall U : cell -> K,
    bsum tl (fun l => match nth_error t1 (fst (fst l)) with
                      | Some tl' => zmul (snd l) (bsum (row_cells ss tl' (bump (snd (fst l)) i))
                                                   (fun cv => zmul (snd cv) (U (fst cv))))
                      | None => r0 end) = r0) ->
  forall (u : nat -> K) r, r < length (cells p ds) ->
  apply_mat (length (cells p ms)) F (apply_mat (length (cells p ss)) E u) r = r0.
Proof.
  intros Ts Tm Td Tab Tab1 HE HF HZ u r Hr.
  destruct (nth_error (cells p ds) r) as [s|] eqn:Es; [|apply nth_error_None in Es; lia].
  rewrite <- (pos_eq _ _ _ (NoDup_cells p ds Td) Es).
  destruct (in_cells_ex p ds s Td (nth_error_In _ _ Es)) as (d & t & i & Hd & -> & Li & Lt & Bi).
  destruct (nth_error t2 d) as [tl|] eqn:Htl.
  2:{ apply nth_error_None in Htl. assert (d < length ds) by (apply nth_error_Some; congruence). destruct Tab. lia. }
  rewrite (HF d t tl i Hd Htl Bi).
  rewrite <- (HZ d t tl i Hd Htl Li Bi (fun c => u (pos (cells p ss) c))).
  unfold row_cells at 1. rewrite bsum_flat_map. apply bsum_ext. intros [[c b] v] Hl. cbn [fst snd].
  destruct (proj2 Tab d t tl Hd Htl c b v Hl) as (m & Hm & Hc). rewrite Hm. rewrite bsum_cons, bsum_nil. cbn [fst snd].
  assert (C : is_cell p m (combine m (bump b i))).
  { apply Hc; [|assumption]. split; [apply map_fst_combine; lia|]. apply inb_sizes; auto. }
  assert (Lm : length m = length p) by (apply Tm; eapply nth_error_In; eassumption).
  assert (Bm : inb (sizes p m) (bump b i) = true) by (apply inb_sizes; [assumption|rewrite length_bump; assumption|apply C]).
  destruct (nth_error t1 c) as [tl'|] eqn:Htl'.
  2:{ apply nth_error_None in Htl'. assert (c < length ms) by (apply nth_error_Some; congruence). destruct Tab1. lia. }
  rewrite (HE c m tl' (bump b i) Hm Htl' Bm). destruct (Rth K). rewrite Radd_comm, Radd_0_l. reflexivity.
Qed.
Ltac dd3_t K :=
  intros d t tl i Hd Htl Li Bi U;
  destruct i as [|i0 [|i1 [|i2 [|]]]]; try discriminate Li;
  destruct d as [|[|[|d]]]; cbn in Hd, Htl; try discriminate; try (destruct d; discriminate); injection Hd as <-; injection Htl as <-;
  rewrite ?bsum_cons, ?bsum_nil;
  cbn [row_cells flat_map nth_error fst snd bump upd combine app nodes3 edges3 faces3 volumes3 map tab10 tab21];
  rewrite ?bsum_cons, ?bsum_nil; cbn [fst snd]; rewrite ?(zmul_1 K), ?(zmul_m1 K); ring.
Ltac dd2_t K :=
  intros d t tl i Hd Htl Li Bi U;
  destruct i as [|i0 [|i1 [|]]]; try discriminate Li;
  destruct d as [|[|d]]; cbn in Hd, Htl; try discriminate; try (destruct d; discriminate); injection Hd as <-; injection Htl as <-;
  rewrite ?bsum_cons, ?bsum_nil;
  cbn [row_cells flat_map nth_error fst snd bump upd combine app nodes2 edges2_inner edges2_outer faces2 map tabI10 tabO10];
  rewrite ?bsum_cons, ?bsum_nil; cbn [fst snd]; rewrite ?(zmul_1 K), ?(zmul_m1 K); ring.
Section DD.
  Variable K : CRing.
  Add Ring Kr4 : (Rth K).
  Lemma dd_10 px py pz : exists E F, E10 [px; py; pz] = Some E /\ E21 [px; py; pz] = Some F /\
    forall (u : nat -> K) r, r < length (cells [px; py; pz] faces3) ->
    apply_mat (length (cells [px; py; pz] edges3)) F (apply_mat (length (cells [px; py; pz] nodes3)) E u) r = r0.
  Proof.
    destruct (E10_acts K px py pz) as (E & HE & AE). destruct (E21_acts K px py pz) as (F & HF & AF).
    exists E, F. split; [assumption|]. split; [assumption|]. intros u r.
    apply (acts_twice K _ nodes3 edges3 faces3 tab10 tab21);
      [apply nodes3_ok|apply edges3_ok|apply faces3_ok|apply tab21_ok|apply tab10_ok|assumption|assumption|].
    dd3_t K.
  Qed.
  Lemma dd_21 px py pz : exists E F, E21 [px; py; pz] = Some E /\ E32 [px; py; pz] = Some F /\
    forall (u : nat -> K) r, r < length (cells [px; py; pz] volumes3) ->
    apply_mat (length (cells [px; py; pz] faces3)) F (apply_mat (length (cells [px; py; pz] edges3)) E u) r = r0.
  Proof.
    destruct (E21_acts K px py pz) as (E & HE & AE). destruct (E32_acts K px py pz) as (F & HF & AF).
    exists E, F. split; [assumption|]. split; [assumption|]. intros u r.
    apply (acts_twice K _ edges3 faces3 volumes3 tab21 tab32);
      [apply edges3_ok|apply faces3_ok|apply volumes3_ok|apply tab32_ok|apply tab21_ok|assumption|assumption|].
    dd3_t K.
  Qed.
  Lemma dd_I px py : exists E F, EI10 [px; py] = Some E /\ EI21 [px; py] = Some F /\
    forall (u : nat -> K) r, r < length (cells [px; py] faces2) ->
    apply_mat (length (cells [px; py] edges2_inner)) F (apply_mat (length (cells [px; py] nodes2)) E u) r = r0.
  Proof.
    destruct (EI10_acts K px py) as (E & HE & AE). destruct (EI21_acts K px py) as (F & HF & AF).
    exists E, F. split; [assumption|]. split; [assumption|]. intros u r.
    apply (acts_twice K _ nodes2 edges2_inner faces2 tabI10 tabI21);
      [apply nodes2_ok|apply edges2i_ok|apply faces2_ok|apply tabI21_ok|apply tabI10_ok|assumption|assumption|].
    dd2_t K.
  Qed.
  Lemma dd_O px py : exists E F, EO10 [px; py] = Some E /\ EO21 [px; py] = Some F /\
    forall (u : nat -> K) r, r < length (cells [px; py] faces2) ->
    apply_mat (length (cells [px; py] edges2_outer)) F (apply_mat (length (cells [px; py] nodes2)) E u) r = r0.
  Proof.
    destruct (EO10_acts K px py) as (E & HE & AE). destruct (EO21_acts K px py) as (F & HF & AF).
    exists E, F. split; [assumption|]. split; [assumption|]. intros u r.
    apply (acts_twice K _ nodes2 edges2_outer faces2 tabO10 tabO21);
      [apply nodes2_ok|apply edges2o_ok|apply faces2_ok|apply tabO21_ok|apply tabO10_ok|assumption|assumption|].
    dd2_t K.
  Qed.
End DD.
