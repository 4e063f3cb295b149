(** The incidence matrices of the concrete forms. *)
From Coq Require Import List Arith ZArith Lia Bool Ring.
From Verif Require Import Prelude PreludeProofs RingSum SpaceModel SpaceSpec SpaceProofs.
Import ListNotations.

(** * shapes *)
Lemma plus1_S n : n + 1 = S n. Proof. lia. Qed.
Lemma plus1_minus1 n : n + 1 - 1 = n. Proof. lia. Qed.
Ltac shp_t := cbn; rewrite ?plus1_S, ?Nat.sub_0_r; cbn; rewrite ?Nat.sub_0_r; reflexivity.
Lemma shapes0_3 px py pz : shapes0 [px; py; pz] = map (sizes [px; py; pz]) nodes3.
Proof. unfold shapes0. shp_t. Qed.
Lemma shapes1_3 px py pz : shapes1 [px; py; pz] = map (sizes [px; py; pz]) edges3.
Proof. unfold shapes1. shp_t. Qed.
Lemma shapes2_3 px py pz : shapes2 [px; py; pz] = map (sizes [px; py; pz]) faces3.
Proof. unfold shapes2. shp_t. Qed.
Lemma shapes3_3 px py pz : shapes3 [px; py; pz] = map (sizes [px; py; pz]) volumes3.
Proof. reflexivity. Qed.
Lemma shapes0_2 px py : shapes0 [px; py] = map (sizes [px; py]) nodes2.
Proof. unfold shapes0. shp_t. Qed.
Lemma shapes1_2 px py : shapes1 [px; py] = map (sizes [px; py]) edges2_inner.
Proof. unfold shapes1. shp_t. Qed.
Lemma shapes2_2 px py : shapes2 [px; py] = map (sizes [px; py]) edges2_outer.
Proof. unfold shapes2. shp_t. Qed.
Lemma shapes3_2 px py : shapes3 [px; py] = map (sizes [px; py]) faces2.
Proof. reflexivity. Qed.

Ltac types_t := split; [repeat constructor; cbn; intuition discriminate|cbn; intros t H; intuition (subst; reflexivity)].
Lemma nodes3_ok px py pz : types_ok [px; py; pz] nodes3. Proof. types_t. Qed.
Lemma edges3_ok px py pz : types_ok [px; py; pz] edges3. Proof. types_t. Qed.
Lemma faces3_ok px py pz : types_ok [px; py; pz] faces3. Proof. types_t. Qed.
Lemma volumes3_ok px py pz : types_ok [px; py; pz] volumes3. Proof. types_t. Qed.
Lemma nodes2_ok px py : types_ok [px; py] nodes2. Proof. types_t. Qed.
Lemma edges2i_ok px py : types_ok [px; py] edges2_inner. Proof. types_t. Qed.
Lemma edges2o_ok px py : types_ok [px; py] edges2_outer. Proof. types_t. Qed.
Lemma faces2_ok px py : types_ok [px; py] faces2. Proof. types_t. Qed.

(** * tables *)
Lemma is_cell3 px py pz t i :
  length t = 3 -> length i = 3 -> (is_cell [px; py; pz] t (combine t i) <-> inb (sizes [px; py; pz] t) i = true).
Proof.
  intros Lt Li. rewrite inb_sizes by auto. unfold is_cell. rewrite map_fst_combine by lia. intuition.
Qed.
Lemma is_cell2 px py t i :
  length t = 2 -> length i = 2 -> (is_cell [px; py] t (combine t i) <-> inb (sizes [px; py] t) i = true).
Proof.
  intros Lt Li. rewrite inb_sizes by auto. unfold is_cell. rewrite map_fst_combine by lia. intuition.
Qed.
Ltac tab3_t :=
  split; [reflexivity|];
  intros d t tl Hd Htl c b v Hl;
  destruct d as [|[|[|d]]]; cbn in Hd, Htl; try discriminate; try (destruct d; discriminate); injection Hd as <-; injection Htl as <-;
  cbn in Hl; repeat (destruct Hl as [Hl|Hl]; [injection Hl as <- <- <-|]); try contradiction;
  (eexists; split; [reflexivity|]);
  intros i Hi Li; destruct i as [|i [|j [|k [|]]]]; try discriminate Li; revert Hi;
  rewrite !is_cell3 by reflexivity; cbn [inb sizes size bump upd]; rewrite !andb_true_iff, !Nat.ltb_lt; lia.
Ltac tab2_t :=
  split; [reflexivity|];
  intros d t tl Hd Htl c b v Hl;
  destruct d as [|[|d]]; cbn in Hd, Htl; try discriminate; try (destruct d; discriminate); injection Hd as <-; injection Htl as <-;
  cbn in Hl; repeat (destruct Hl as [Hl|Hl]; [injection Hl as <- <- <-|]); try contradiction;
  (eexists; split; [reflexivity|]);
  intros i Hi Li; destruct i as [|i [|j [|]]]; try discriminate Li; revert Hi;
  rewrite !is_cell2 by reflexivity; cbn [inb sizes size bump upd]; rewrite !andb_true_iff, !Nat.ltb_lt; lia.
Lemma tab10_ok px py pz : tab_ok [px; py; pz] nodes3 edges3 tab10. Proof. tab3_t. Qed.
Lemma tab21_ok px py pz : tab_ok [px; py; pz] edges3 faces3 tab21. Proof. tab3_t. Qed.
Lemma tab32_ok px py pz : tab_ok [px; py; pz] faces3 volumes3 tab32. Proof. tab3_t. Qed.
Lemma tabI10_ok px py : tab_ok [px; py] nodes2 edges2_inner tabI10. Proof. tab2_t. Qed.
Lemma tabI21_ok px py : tab_ok [px; py] edges2_inner faces2 tabI21. Proof. tab2_t. Qed.
Lemma tabO10_ok px py : tab_ok [px; py] nodes2 edges2_outer tabO10. Proof. tab2_t. Qed.
Lemma tabO21_ok px py : tab_ok [px; py] edges2_outer faces2 tabO21. Proof. tab2_t. Qed.

(** * entries = incidence numbers *)

Lemma in_cells_ex p ts c : types_ok p ts -> In c (cells p ts) -> exists d t i, nth_error ts d = Some t /\
  c = combine t i /\ length i = length p /\ length t = length p /\ inb (sizes p t) i = true.
Proof.
  intros T H. unfold cells in H. apply in_flat_map in H. destruct H as (t & Ht & H). assert (Lt := proj2 T t Ht).
  unfold cells_t in H. apply in_map_iff in H. destruct H as (i & <- & Hi). apply in_grid in Hi.
  apply In_nth_error in Ht. destruct Ht as (d & Hd). exists d, t, i. repeat split; auto.
  apply inb_length in Hi. rewrite length_sizes in Hi; auto.
Qed.
Lemma realises_lastc p ss ds tab od os E : types_ok p ss -> types_ok p ds -> length tab = length ds ->
  (forall d t tl i, nth_error ds d = Some t -> nth_error tab d = Some tl -> inb (sizes p t) i = true ->
    forall c, In c (cells p ss) -> E (pos (cells p ds) (combine t i)) (pos (cells p ss) c) = lastc (row_cells ss tl i) c 0) ->
  (forall d t tl i e u j, nth_error ds d = Some t -> nth_error tab d = Some tl -> length i = length p ->
    nth_error ss e = Some u -> length j = length p ->
    lastc (row_cells ss tl i) (combine u j) 0 =
    (od (combine t i) * os (combine u j) * inc (combine t i) (combine u j))%Z) ->
  realises E (cells p ds) (cells p ss) od os.
Proof.
  intros Ts Td Lt HE HL r c s t Hr Hc.
  assert (Hs : In s (cells p ds)) by (eapply nth_error_In; eassumption).
  assert (Ht : In t (cells p ss)) by (eapply nth_error_In; eassumption).
  rewrite <- (pos_eq _ _ _ (NoDup_cells p ds Td) Hr), <- (pos_eq _ _ _ (NoDup_cells p ss Ts) Hc).
  destruct (in_cells_ex p ds s Td Hs) as (d & a & i & Hd & -> & Li & La & Bi).
  destruct (in_cells_ex p ss t Ts Ht) as (e & b & j & He & -> & Lj & Lb & Bj).
  destruct (nth_error tab d) as [tl|] eqn:Htl.
  - rewrite (HE d a tl i Hd Htl Bi _ Ht). eapply HL; eassumption.
  - exfalso. apply nth_error_None in Htl. assert (d < length ds) by (apply nth_error_Some; congruence). lia.
Qed.
Ltac ifs :=
  repeat match goal with
  | |- context [?a =? ?b] => destruct (Nat.eqb_spec a b); try (exfalso; lia); subst
  end.
Ltac real3_t :=
  intros d t tl i e u j Hd Htl Li He Lj;
  destruct i as [|i0 [|i1 [|i2 [|]]]]; try discriminate Li; destruct j as [|j0 [|j1 [|j2 [|]]]]; try discriminate Lj;
  destruct d as [|[|[|d]]]; cbn in Hd, Htl; try discriminate; try (destruct d; discriminate); injection Hd as <-; injection Htl as <-;
  destruct e as [|[|[|e]]]; cbn in He; try discriminate; try (destruct e; discriminate); injection He as <-;
  cbn [row_cells flat_map nth_error fst snd bump upd combine app nodes3 edges3 faces3 volumes3 lastc
       cell_eqb factor_eqb Bool.eqb andb inc orient3 map];
  ifs; cbn [andb Bool.eqb]; ifs; cbn [andb]; try reflexivity.
Ltac real2_t :=
  intros d t tl i e u j Hd Htl Li He Lj;
  destruct i as [|i0 [|i1 [|]]]; try discriminate Li; destruct j as [|j0 [|j1 [|]]]; try discriminate Lj;
  destruct d as [|[|d]]; cbn in Hd, Htl; try discriminate; try (destruct d; discriminate); injection Hd as <-; injection Htl as <-;
  destruct e as [|[|e]]; cbn in He; try discriminate; try (destruct e; discriminate); injection He as <-;
  cbn [row_cells flat_map nth_error fst snd bump upd combine app nodes2 edges2_inner edges2_outer faces2 lastc
       cell_eqb factor_eqb Bool.eqb andb inc orient_in orient_out map];
  ifs; cbn [andb Bool.eqb]; ifs; cbn [andb]; try reflexivity.

Lemma E10_real px py pz : exists E, E10 [px; py; pz] = Some E /\
  realises E (cells [px; py; pz] edges3) (cells [px; py; pz] nodes3) orient3 orient3.
Proof.
  unfold E10. rewrite shapes0_3, shapes1_3.
  destruct (incidence_ok _ _ _ _ (nodes3_ok px py pz) (edges3_ok px py pz) (tab10_ok px py pz)) as (E & -> & H).
  exists E. split; [reflexivity|].
  eapply (realises_lastc _ _ _ tab10); [apply nodes3_ok|apply edges3_ok|reflexivity|exact H|]. real3_t.
Qed.
Lemma E21_real px py pz : exists E, E21 [px; py; pz] = Some E /\
  realises E (cells [px; py; pz] faces3) (cells [px; py; pz] edges3) orient3 orient3.
Proof.
  unfold E21. rewrite shapes1_3, shapes2_3.
  destruct (incidence_ok _ _ _ _ (edges3_ok px py pz) (faces3_ok px py pz) (tab21_ok px py pz)) as (E & -> & H).
  exists E. split; [reflexivity|].
  eapply (realises_lastc _ _ _ tab21); [apply edges3_ok|apply faces3_ok|reflexivity|exact H|]. real3_t.
Qed.
Lemma E32_real px py pz : exists E, E32 [px; py; pz] = Some E /\
  realises E (cells [px; py; pz] volumes3) (cells [px; py; pz] faces3) orient3 orient3.
Proof.
  unfold E32. rewrite shapes2_3, shapes3_3.
  destruct (incidence_ok _ _ _ _ (faces3_ok px py pz) (volumes3_ok px py pz) (tab32_ok px py pz)) as (E & -> & H).
  exists E. split; [reflexivity|].
  eapply (realises_lastc _ _ _ tab32); [apply faces3_ok|apply volumes3_ok|reflexivity|exact H|]. real3_t.
Qed.
Lemma EI10_real px py : exists E, EI10 [px; py] = Some E /\
  realises E (cells [px; py] edges2_inner) (cells [px; py] nodes2) orient_in orient_in.
Proof.
  unfold EI10. rewrite shapes0_2, shapes1_2.
  destruct (incidence_ok _ _ _ _ (nodes2_ok px py) (edges2i_ok px py) (tabI10_ok px py)) as (E & -> & H).
  exists E. split; [reflexivity|].
  eapply (realises_lastc _ _ _ tabI10); [apply nodes2_ok|apply edges2i_ok|reflexivity|exact H|]. real2_t.
Qed.
Lemma EI21_real px py : exists E, EI21 [px; py] = Some E /\
  realises E (cells [px; py] faces2) (cells [px; py] edges2_inner) orient_in orient_in.
Proof.
  unfold EI21. rewrite shapes1_2, shapes3_2.
  destruct (incidence_ok _ _ _ _ (edges2i_ok px py) (faces2_ok px py) (tabI21_ok px py)) as (E & -> & H).
  exists E. split; [reflexivity|].
  eapply (realises_lastc _ _ _ tabI21); [apply edges2i_ok|apply faces2_ok|reflexivity|exact H|]. real2_t.
Qed.
Lemma EO10_real px py : exists E, EO10 [px; py] = Some E /\
  realises E (cells [px; py] edges2_outer) (cells [px; py] nodes2) orient_out orient_out.
Proof.
  unfold EO10. rewrite shapes0_2, shapes2_2.
  destruct (incidence_ok _ _ _ _ (nodes2_ok px py) (edges2o_ok px py) (tabO10_ok px py)) as (E & -> & H).
  exists E. split; [reflexivity|].
  eapply (realises_lastc _ _ _ tabO10); [apply nodes2_ok|apply edges2o_ok|reflexivity|exact H|]. real2_t.
Qed.
Lemma EO21_real px py : exists E, EO21 [px; py] = Some E /\
  realises E (cells [px; py] faces2) (cells [px; py] edges2_outer) orient_out orient_out.
Proof.
  unfold EO21. rewrite shapes2_2, shapes3_2.
  destruct (incidence_ok _ _ _ _ (edges2o_ok px py) (faces2_ok px py) (tabO21_ok px py)) as (E & -> & H).
  exists E. split; [reflexivity|].
  eapply (realises_lastc _ _ _ tabO21); [apply edges2o_ok|apply faces2_ok|reflexivity|exact H|]. real2_t.
Qed.
