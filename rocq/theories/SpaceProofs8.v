(** Numbering of the dofs as a bijection, matrices applied to cochains, topological connection. *)
From Coq Require Import List Arith ZArith Lia Bool Ring.
From Verif Require Import Prelude PreludeProofs RingSum SpaceModel SpaceSpec SpaceProofs SpaceProofs2 SpaceProofs3 SpaceProofs4 SpaceProofs5
  SpaceProofs6 SpaceProofs7.
Import ListNotations.

(** * bijection *)
Lemma length_arrs off ss : length (arrs_from off ss) = length ss.
Proof. revert off. induction ss; intros off; cbn; auto. Qed.
Lemma numbering_numbers p ts : types_ok p ts ->
  exists arrs, numbering (map (sizes p) ts) = Some arrs /\ numbers p ts (entry arrs) (nb (map (sizes p) ts)).
Proof.
  intros T. rewrite numbering_ok. eexists. split; [reflexivity|].
  split; [apply nb_ok|]. intros c i k. unfold entry. split.
  - destruct (nth_error (arrs_from 0 (map (sizes p) ts)) c) as [a|] eqn:Ha; [|discriminate]. intros G.
    destruct (nth_error ts c) as [t|] eqn:Ht.
    + exists t. split; [reflexivity|]. eapply numbering_cells; eassumption.
    + apply nth_error_None in Ht. assert (c < length (arrs_from 0 (map (sizes p) ts))) by (apply nth_error_Some; congruence).
      rewrite length_arrs, map_length in H. lia.
  - intros (t & Ht & H). destruct (arrs_ex 0 (map (sizes p) ts) c (sizes p t)) as (a & Ha & _); [rewrite nth_error_map, Ht; reflexivity|].
    rewrite Ha. eapply numbering_cells; eassumption.
Qed.
(** every number below the number of basis functions belongs to one index of one component *)
Lemma numbers_bij p ts G n : types_ok p ts -> numbers p ts G n -> one_to_one G n.
Proof.
  intros T (-> & H). split; [|split].
  - intros c i k Hk. apply H in Hk. destruct Hk as (t & _ & _ & Hk). apply nth_error_Some. congruence.
  - intros k Hk. destruct (nth_error (cells p ts) k) as [x|] eqn:E; [|apply nth_error_None in E; lia].
    assert (Hx : In x (cells p ts)) by (eapply nth_error_In; eassumption).
    destruct (in_cells_ex p ts x T Hx) as (d & t & i & Hd & -> & Li & Lt & _).
    exists d, i. apply H. exists t. auto.
  - intros c i c' i' k Hk Hk'. apply H in Hk, Hk'. destruct Hk as (t & Ht & Li & E1), Hk' as (t' & Ht' & Li' & E2).
    assert (Lt : length t = length p) by (apply T; eapply nth_error_In; eassumption).
    assert (Lt' : length t' = length p) by (apply T; eapply nth_error_In; eassumption).
    assert (E : combine t i = combine t' i') by congruence.
    assert (Et : t = t') by (rewrite <- (map_fst_combine t i), <- (map_fst_combine t' i'), E by lia; reflexivity).
    assert (Ei : i = i') by (rewrite <- (map_snd_combine t i), <- (map_snd_combine t' i'), E by lia; reflexivity).
    split; [|exact Ei]. destruct T as [N _]. subst t'. eapply NoDup_nth_inj; eassumption.
Qed.
Lemma forms3 px py pz : let p := [px; py; pz] in
  (exists a, numbering (shapes0 p) = Some a /\ numbers p nodes3 (entry a) (nb (shapes0 p)) /\ one_to_one (entry a) (nb (shapes0 p))) /\
  (exists a, numbering (shapes1 p) = Some a /\ numbers p edges3 (entry a) (nb (shapes1 p)) /\ one_to_one (entry a) (nb (shapes1 p))) /\
  (exists a, numbering (shapes2 p) = Some a /\ numbers p faces3 (entry a) (nb (shapes2 p)) /\ one_to_one (entry a) (nb (shapes2 p))) /\
  (exists a, numbering (shapes3 p) = Some a /\ numbers p volumes3 (entry a) (nb (shapes3 p)) /\ one_to_one (entry a) (nb (shapes3 p))).
Proof.
  cbv zeta. rewrite shapes0_3, shapes1_3, shapes2_3, shapes3_3.
  assert (G : forall ts, types_ok [px; py; pz] ts -> exists a, numbering (map (sizes [px; py; pz]) ts) = Some a /\
    numbers [px; py; pz] ts (entry a) (nb (map (sizes [px; py; pz]) ts)) /\ one_to_one (entry a) (nb (map (sizes [px; py; pz]) ts))).
  { intros ts T. destruct (numbering_numbers _ _ T) as (a & E & H). exists a. split; [exact E|]. split; [exact H|]. eapply numbers_bij; eassumption. }
  repeat split; apply G; [apply nodes3_ok|apply edges3_ok|apply faces3_ok|apply volumes3_ok].
Qed.
Lemma forms2 px py : let p := [px; py] in
  (exists a, numbering (shapes0 p) = Some a /\ numbers p nodes2 (entry a) (nb (shapes0 p)) /\ one_to_one (entry a) (nb (shapes0 p))) /\
  (exists a, numbering (shapes1 p) = Some a /\ numbers p edges2_inner (entry a) (nb (shapes1 p)) /\ one_to_one (entry a) (nb (shapes1 p))) /\
  (exists a, numbering (shapes2 p) = Some a /\ numbers p edges2_outer (entry a) (nb (shapes2 p)) /\ one_to_one (entry a) (nb (shapes2 p))) /\
  (exists a, numbering (shapes3 p) = Some a /\ numbers p faces2 (entry a) (nb (shapes3 p)) /\ one_to_one (entry a) (nb (shapes3 p))).
Proof.
  cbv zeta. rewrite shapes0_2, shapes1_2, shapes2_2, shapes3_2.
  assert (G : forall ts, types_ok [px; py] ts -> exists a, numbering (map (sizes [px; py]) ts) = Some a /\
    numbers [px; py] ts (entry a) (nb (map (sizes [px; py]) ts)) /\ one_to_one (entry a) (nb (map (sizes [px; py]) ts))).
  { intros ts T. destruct (numbering_numbers _ _ T) as (a & E & H). exists a. split; [exact E|]. split; [exact H|]. eapply numbers_bij; eassumption. }
  repeat split; apply G; [apply nodes2_ok|apply edges2i_ok|apply edges2o_ok|apply faces2_ok].
Qed.
(** the cells listed are the cells of the box, each once *)
Lemma cells_all p ts : types_ok p ts -> NoDup (cells p ts) /\ forall c, In c (cells p ts) <-> exists t, In t ts /\ is_cell p t c.
Proof. intros T. split; [apply NoDup_cells; assumption|]. intros c. apply in_cells. assumption. Qed.
Lemma counts3 px py pz : let p := [px; py; pz] in
  nb (shapes0 p) = (px+1)*(py+1)*(pz+1) /\
  nb (shapes1 p) = px*(py+1)*(pz+1) + (px+1)*py*(pz+1) + (px+1)*(py+1)*pz /\
  nb (shapes2 p) = (px+1)*py*pz + px*(py+1)*pz + px*py*(pz+1) /\
  nb (shapes3 p) = px*py*pz.
Proof. cbn. rewrite ?Nat.add_sub. repeat split; lia. Qed.

(** * restriction matrices applied to a cochain *)
Lemma restricts_apply (K : CRing) {A} (L : list (A * cell)) cs sg T (u : nat -> K) r s x n :
  NoDup cs -> restricts L cs sg T -> nth_error L r = Some (s, x) -> nth_error cs n = Some x ->
  apply_mat (length cs) T u r = zmul (sg s) (u n).
Proof.
  intros N H Hr Hn. unfold apply_mat. rewrite (bsum_only _ _ n).
  - rewrite H, Hr, Hn. assert (cell_eqb x x = true) as -> by (apply cell_eqb_eq; reflexivity). reflexivity.
  - apply seq_NoDup.
  - apply in_seq. assert (n < length cs) by (apply nth_error_Some; congruence). lia.
  - intros m _ Hm. rewrite H, Hr. destruct (nth_error cs m) as [y|] eqn:E; [|reflexivity].
    destruct (cell_eqb x y) eqn:B; [|reflexivity]. apply cell_eqb_eq in B. subst y. exfalso. apply Hm.
    eapply NoDup_nth_inj; eassumption.
Qed.

(** * topological connection *)
Lemma lastw_inj (l : list cell) f g v c d z :
  (forall a, In a l -> f a = f c -> a = c) -> (forall a, In a l -> g a = g d -> a = d) ->
  lastw (map (fun x => (f x, g x, v)) l) (f c) (g d) z = if existsb (cell_eqb c) l && cell_eqb c d then v else z.
Proof.
  revert z. induction l as [|a l IH]; intros z Hf Hg; [reflexivity|]. cbn [map lastw existsb].
  rewrite IH by (intros; first [apply Hf|apply Hg]; try (right; assumption); assumption).
  destruct (Nat.eqb_spec (f c) (f a)) as [E1|E1].
  - assert (a = c) by (apply Hf; [left; reflexivity|congruence]). subst a.
    assert (cell_eqb c c = true) as -> by (apply cell_eqb_eq; reflexivity). cbn [orb andb].
    destruct (Nat.eqb_spec (g d) (g c)) as [E2|E2].
    + assert (c = d) by (apply Hg; [left; reflexivity|congruence]). subst d.
      assert (cell_eqb c c = true) as -> by (apply cell_eqb_eq; reflexivity). rewrite andb_true_r.
      destruct (existsb (cell_eqb c) l); reflexivity.
    + assert (cell_eqb c d = false) as ->.
      { destruct (cell_eqb c d) eqn:B; [|reflexivity]. apply cell_eqb_eq in B. congruence. }
      rewrite andb_false_r. reflexivity.
  - cbn [andb]. assert (cell_eqb c a = false) as ->.
    { destruct (cell_eqb c a) eqn:B; [|reflexivity]. apply cell_eqb_eq in B. congruence. }
    reflexivity.
Qed.
Section Topo.
  Context (px py pz : nat) (Fp : Forall (fun n => 1 <= n) [px; py; pz]).
  Notation p := [px; py; pz].
  Context (ts : list ctype) (T : types_ok p ts).
  Definition surf (c : cell) : Prop := In c (cells p ts) /\ on_surface p c = true.
  Lemma scells_surf s c : In s sides3 -> In c (scells p ts s) -> surf c.
  Proof. intros Hs H. apply filter_In in H. split; [tauto|]. apply (surface_of px py pz s); tauto. Qed.
  Lemma connect_gen num col nr nc : (forall c d, surf c -> surf d -> num c = num d -> c = d) ->
    (forall c d, surf c -> surf d -> col c = col d -> c = d) -> (forall c, surf c -> num c < nr /\ col c < nc) ->
    exists M, connect nr nc (map (fun s => map (fun c => Z.of_nat (num c)) (scells p ts s)) sides3)
                      (map (fun s => Some (map col (scells p ts s))) sides3) = Some M /\
      (forall c d, surf c -> surf d -> M (num c) (col d) = if cell_eqb c d then last_sign p sides3 c else 0%Z) /\
      (forall r k, (forall c, surf c -> r <> num c \/ k <> col c) -> M r k = 0%Z).
  Proof.
    intros In1 In2 B. unfold connect. change NSWEBF with sides3.
    set (ws := flat_map (fun s => map (fun x => (num x, col x, outward s)) (scells p ts s)) sides3).
    assert (E : concat_some (map (fun x => assign (Some (map Z.to_nat (fst (snd x)))) (snd (snd x)) (outward (fst x)))
       (combine sides3 (combine (map (fun s => map (fun c => Z.of_nat (num c)) (scells p ts s)) sides3)
                                (map (fun s => Some (map col (scells p ts s))) sides3)))) = Some ws).
    { unfold ws. clear. induction sides3 as [|s l IH]; [reflexivity|]. cbn [map combine fst snd flat_map].
      assert (A : assign (Some (map Z.to_nat (map (fun c => Z.of_nat (num c)) (scells p ts s)))) (Some (map col (scells p ts s))) (outward s) =
        Some (map (fun x => (num x, col x, outward s)) (scells p ts s))).
      { unfold assign. rewrite !map_length, Nat.eqb_refl. f_equal. rewrite map_map. induction (scells p ts s) as [|c l' IH']; [reflexivity|].
        cbn [map combine fst snd]. rewrite IH', Nat2Z.id. reflexivity. }
      rewrite A, concat_some_cons, IH. reflexivity. }
    rewrite E. rewrite build_ok.
    - eexists. split; [reflexivity|]. split.
      + intros c d Hc Hd. rewrite fold_setm. unfold ws, last_sign.
        assert (G : forall l z, (forall s, In s l -> In s sides3) ->
          lastw (flat_map (fun s => map (fun x => (num x, col x, outward s)) (scells p ts s)) l) (num c) (col d) (if cell_eqb c d then z else 0%Z) =
          if cell_eqb c d then fold_left (fun z s => if on_side p s c then outward_sign s else z) l z else 0%Z).
        { induction l as [|s l IH]; intros z Hl; [reflexivity|]. cbn [flat_map fold_left]. rewrite lastw_app.
          rewrite lastw_inj.
          - rewrite <- IH by (intros; apply Hl; right; assumption). f_equal.
            assert (EX : existsb (cell_eqb c) (scells p ts s) = on_side p s c).
            { destruct (on_side p s c) eqn:O.
              - apply existsb_exists. exists c. split; [apply filter_In; split; [apply Hc|assumption]|apply cell_eqb_eq; reflexivity].
              - destruct (existsb _ _) eqn:X; [|reflexivity]. apply existsb_exists in X. destruct X as (x & Hx & X).
                apply cell_eqb_eq in X. subst x. apply filter_In in Hx. rewrite O in Hx. destruct Hx. discriminate. }
            rewrite EX. change (outward s) with (outward_sign s). destruct (on_side p s c), (cell_eqb c d); reflexivity.
          - intros a Ha Q. apply In1; [|assumption|assumption]. apply (scells_surf s); [apply Hl; left; reflexivity|assumption].
          - intros a Ha Q. apply In2; [|assumption|assumption]. apply (scells_surf s); [apply Hl; left; reflexivity|assumption]. }
        rewrite <- (G sides3 0%Z (fun s H => H)). f_equal. destruct (cell_eqb c d); reflexivity.
      + intros r k Hrk. rewrite fold_setm. apply lastw_none. intros r' c' v Hi -> ->. unfold ws in Hi. apply in_flat_map in Hi.
        destruct Hi as (s & Hs & Hi). apply in_map_iff in Hi. destruct Hi as (x & Ex & Hx). injection Ex as E1 E2 _.
        destruct (Hrk x (scells_surf s x Hs Hx)); congruence.
    - intros r c v Hi. unfold ws in Hi. apply in_flat_map in Hi.
      destruct Hi as (s & Hs & Hi). apply in_map_iff in Hi. destruct Hi as (x & Ex & Hx). injection Ex as <- <- _.
      apply B. apply (scells_surf s); assumption.
  Qed.
  Lemma sf_cols comp : (forall s, In s sides3 -> one_comp ts comp s) ->
    map (fun s => match nth_error (arrs_from 0 (map (sizes p) ts)) (comp s) with
                  | Some a => ravel a (side_sel (length (shp a)) s) | None => None end) sides3 =
    map (fun s => Some (map (pos (cells p ts)) (scells p ts s))) sides3.
  Proof.
    intros H. apply map_ext_in. intros s Hs. destruct (H s Hs) as (t & Ht & Hf).
    destruct (arrs_ex 0 (map (sizes p) ts) (comp s) (sizes p t)) as (a & Ha & _); [rewrite nth_error_map, Ht; reflexivity|].
    rewrite Ha. assert (Htt : touches s t = true).
    { assert (In t (filter (touches s) ts)) as Hi by (rewrite Hf; left; reflexivity). apply filter_In in Hi. apply Hi. }
    rewrite (ravel_side p ts _ _ _ _ T Fp Ha Ht Htt).
    assert (ES : scells p ts s = filter (on_side p s) (cells_t p t)).
    { unfold scells. rewrite filter_side_cells by apply T. rewrite Hf. cbn [flat_map]. apply app_nil_r. }
    rewrite ES. reflexivity.
  Qed.
  (** the connection between a standard form, its local trace and its trace *)
  Lemma connection_ok comp ntr N L lg : (forall s, In s sides3 -> one_comp ts comp s) ->
    lg = Some L -> numbers_surface p ts L N -> Z.of_nat N = ntr ->
    exists num A B, T_ltf_sf (map (sizes p) ts) comp ntr lg = Some A /\ T_ltf_tf ntr lg = Some B /\
      L = map (fun s => map (fun c => Z.of_nat (num c)) (filter (on_side p s) (cells p ts))) sides3 /\
      (forall c n d, surf c -> nth_error (cells p ts) n = Some d ->
         A (num c) n = if cell_eqb c d then last_sign p sides3 c else 0%Z) /\
      (forall c d, surf c -> surf d -> B (num c) (num d) = if cell_eqb c d then last_sign p sides3 c else 0%Z) /\
      (forall r, r < N -> exists c, surf c /\ num c = r) /\
      (forall c, surf c -> num c < N).
  Proof.
    intros HC -> (num & EL & Inj & Img) <-.
    assert (Inj' : forall c d, surf c -> surf d -> num c = num d -> c = d) by (intros c d [H1 H2] [H3 H4]; apply Inj; assumption).
    assert (Bd : forall c, surf c -> num c < N) by (intros c [H1 H2]; apply Img; exists c; tauto).
    unfold T_ltf_sf, T_ltf_tf. rewrite numbering_ok, Nat2Z.id. change NSWEBF with sides3. rewrite sf_cols by assumption.
    assert (ES : L = map (fun s => map (fun c => Z.of_nat (num c)) (scells p ts s)) sides3) by exact EL.
    destruct (connect_gen num (pos (cells p ts)) N (nb (map (sizes p) ts))) as (A & EA & HA & HA0); [assumption| | |].
    { intros c d [H1 _] [H2 _]. apply pos_inj; assumption. }
    { intros c Hc. split; [apply Bd; assumption|]. rewrite nb_ok. apply pos_lt, Hc. }
    destruct (connect_gen num num N N Inj' Inj' (fun c Hc => conj (Bd c Hc) (Bd c Hc))) as (B & EB & HB & HB0).
    exists num, A, B. rewrite ES at 1. split; [exact EA|]. split; [|split; [exact EL|split; [|split; [|split]]]].
    - rewrite ES. rewrite map_map. rewrite <- EB. f_equal. apply map_ext. intros s. f_equal. rewrite map_map. apply map_ext. intros c. apply Nat2Z.id.
    - intros c n d Hc Hn. assert (Hd : In d (cells p ts)) by (eapply nth_error_In; eassumption).
      assert (En := pos_eq _ _ _ (NoDup_cells p ts T) Hn).
      destruct (on_surface p d) eqn:S.
      + rewrite <- En. apply HA; [assumption|split; assumption].
      + assert (cell_eqb c d = false) as ->.
        { destruct (cell_eqb c d) eqn:Q; [|reflexivity]. apply cell_eqb_eq in Q. subst d. destruct Hc. congruence. }
        apply HA0. intros x [Hx Sx]. right. rewrite <- En. intros Q. apply pos_inj in Q; try assumption. subst x. congruence.
    - intros c d Hc Hd. apply HB; assumption.
    - intros r Hr. apply Img in Hr. destruct Hr as (c & H1 & H2 & H3). exists c. split; [split; assumption|assumption].
    - exact Bd.
  Qed.
  Lemma last_sign_unit c : surf c -> last_sign p sides3 c = 1%Z \/ last_sign p sides3 c = (-1)%Z.
  Proof.
    intros [_ H]. unfold on_surface in H. unfold last_sign. revert H. cbn [sides3 existsb fold_left outward_sign snd].
    repeat match goal with |- context [on_side p ?s c] => destruct (on_side p s c) end; cbn; auto; discriminate.
  Qed.
End Topo.
Section Apply.
  Variable K : CRing.
  Add Ring Kr8 : (Rth K).
  Context (px py pz : nat) (Fp : Forall (fun n => 1 <= n) [px; py; pz]).
  Notation p := [px; py; pz].
  Context (ts : list ctype) (T : types_ok p ts).
  Lemma zmul_unit z (x y : K) : z = 1%Z \/ z = (-1)%Z -> zmul z x = zmul z y -> x = y.
  Proof.
    intros [-> | ->]; [rewrite !zmul_1; auto|]. rewrite !zmul_m1. intros H.
    transitivity (ropp (ropp x)); [ring|]. rewrite H. ring.
  Qed.
  Lemma coupled_ok comp ntr N L lg : (forall s, In s sides3 -> one_comp ts comp s) ->
    lg = Some L -> numbers_surface p ts L N -> Z.of_nat N = ntr ->
    exists A B, T_ltf_sf (map (sizes p) ts) comp ntr lg = Some A /\ T_ltf_tf ntr lg = Some B /\ coupled K p ts N L A B.
  Proof.
    intros HC El Hns Hn. destruct (connection_ok px py pz Fp ts T comp ntr N L lg HC El Hns Hn)
      as (num & A & B & EA & EB & EL & HA & HB & Himg & Hbd).
    destruct Hns as (num0 & EL0 & Inj0 & _).
    exists A, B. split; [exact EA|]. split; [exact EB|]. intros u t.
    assert (Nd := NoDup_cells p ts T).
    assert (same : forall c, surf px py pz ts c -> num c = num0 c).
    { intros c [Hc Sc]. unfold on_surface in Sc. apply existsb_exists in Sc. destruct Sc as (s & Hs & Sc).
      rewrite EL in EL0. apply In_nth_error in Hs. destruct Hs as (k & Hk).
      assert (Q : nth_error (map (fun s => map (fun c => Z.of_nat (num c)) (filter (on_side p s) (cells p ts))) sides3) k =
                  nth_error (map (fun s => map (fun c => Z.of_nat (num0 c)) (filter (on_side p s) (cells p ts))) sides3) k) by (rewrite EL0; reflexivity).
      rewrite !nth_error_map, Hk in Q. cbn [option_map] in Q. injection Q as Q.
      assert (Hf : In c (filter (on_side p s) (cells p ts))) by (apply filter_In; split; assumption).
      apply In_nth_error in Hf. destruct Hf as (j & Hj).
      assert (Q' := f_equal (fun l => nth_error l j) Q). cbn beta in Q'. rewrite !nth_error_map, Hj in Q'. cbn [option_map] in Q'.
      injection Q' as Q'. lia. }
    assert (Inj : forall c d, surf px py pz ts c -> surf px py pz ts d -> num c = num d -> c = d).
    { intros c d Hc Hd Q. rewrite !same in Q by assumption. destruct Hc, Hd. apply Inj0; assumption. }
    assert (RA : forall c n, surf px py pz ts c -> nth_error (cells p ts) n = Some c ->
      apply_mat (length (cells p ts)) A u (num c) = zmul (last_sign p sides3 c) (u n)).
    { intros c n Hc Hn'. unfold apply_mat. rewrite (bsum_only _ _ n).
      - rewrite (HA c n c Hc Hn'). assert (cell_eqb c c = true) as -> by (apply cell_eqb_eq; reflexivity). reflexivity.
      - apply seq_NoDup.
      - apply in_seq. assert (n < length (cells p ts)) by (apply nth_error_Some; congruence). lia.
      - intros m Hm Hmn. apply in_seq in Hm. destruct (nth_error (cells p ts) m) as [d|] eqn:Em; [|apply nth_error_None in Em; lia].
        rewrite (HA c m d Hc Em). destruct (cell_eqb c d) eqn:Q; [|reflexivity]. apply cell_eqb_eq in Q. subst d. exfalso. apply Hmn.
        eapply NoDup_nth_inj; eassumption. }
    assert (RB : forall c, surf px py pz ts c -> apply_mat N B t (num c) = zmul (last_sign p sides3 c) (t (num c))).
    { intros c Hc. unfold apply_mat. rewrite (bsum_only _ _ (num c)).
      - rewrite (HB c c Hc Hc). assert (cell_eqb c c = true) as -> by (apply cell_eqb_eq; reflexivity). reflexivity.
      - apply seq_NoDup.
      - apply in_seq. specialize (Hbd c Hc). lia.
      - intros m Hm Hmn. apply in_seq in Hm. destruct (Himg m) as (d & Hd & <-); [lia|].
        rewrite (HB c d Hc Hd). destruct (cell_eqb c d) eqn:Q; [|reflexivity]. apply cell_eqb_eq in Q. subst d. exfalso. apply Hmn. reflexivity. }
    split.
    - intros H k s l j i Hk Hl Hj c n Hc Hn'.
      assert (Hsf : surf px py pz ts c).
      { apply (scells_surf px py pz ts s); [eapply nth_error_In; eassumption|]. eapply nth_error_In. exact Hc. }
      rewrite EL, nth_error_map, Hk in Hl. cbn [option_map] in Hl. injection Hl as <-. rewrite nth_error_map, Hc in Hj. cbn [option_map] in Hj.
      injection Hj as Hj. apply Nat2Z.inj in Hj. subst i.
      specialize (H (num c) (Hbd c Hsf)). rewrite (RA c n Hsf Hn'), (RB c Hsf) in H. symmetry. eapply zmul_unit; [|exact H]. apply (last_sign_unit px py pz ts). assumption.
    - intros H r Hr. destruct (Himg r Hr) as (c & Hsf & <-). assert (Hc := Hsf). destruct Hc as [Hc Sc].
      apply In_nth_error in Hc. destruct Hc as (n & Hn'). rewrite (RA c n Hsf Hn'), (RB c Hsf). f_equal. symmetry.
      unfold on_surface in Sc. apply existsb_exists in Sc. destruct Sc as (s & Hs & Sc).
      apply In_nth_error in Hs. destruct Hs as (k & Hk).
      assert (Hf : In c (filter (on_side p s) (cells p ts))) by (apply filter_In; split; [eapply nth_error_In; eassumption|assumption]).
      apply In_nth_error in Hf. destruct Hf as (j & Hj).
      eapply (H k s _ j (num c) Hk); [rewrite EL, nth_error_map, Hk; reflexivity|rewrite nth_error_map, Hj; reflexivity|exact Hj|exact Hn'].
  Qed.
End Apply.
Section Three.
  Variable K : CRing.
  Context (px py pz : nat) (Fp : Forall (fun n => 1 <= n) [px; py; pz]).
  Notation p := [px; py; pz].
  Ltac comp_t := intros s H; cbn in H; repeat destruct H as [<-|H]; try contradiction; eexists; split; reflexivity.
  Lemma connect0_ok : exists L N A B, lg0 p = Some L /\ connect0 p = (Some A, Some B) /\ Z.of_nat N = nt0_nonhybrid p /\
    coupled K p nodes3 N L A B.
  Proof.
    destruct (lg0_ok px py pz Fp) as (L & N & EL & HL & HN).
    destruct (coupled_ok K px py pz Fp nodes3 (nodes3_ok px py pz) (fun _ => 0) (nt0_nonhybrid p) N L (lg0 p)) as (A & B & EA & EB & H);
      [comp_t|assumption..|].
    exists L, N, A, B. unfold connect0. rewrite shapes0_3, EA, EB. auto.
  Qed.
  Lemma connect2_ok : exists L N A B, lg2 p = Some L /\ connect2 p = (Some A, Some B) /\ Z.of_nat N = nt2_nonhybrid p /\
    coupled K p faces3 N L A B.
  Proof.
    destruct (lg2_ok px py pz Fp) as (L & N & EL & HL & HN).
    destruct (coupled_ok K px py pz Fp faces3 (faces3_ok px py pz) (fun s => fst s) (nt2_nonhybrid p) N L (lg2 p)) as (A & B & EA & EB & H);
      [comp_t|assumption..|].
    exists L, N, A, B. unfold connect2. rewrite shapes2_3, EA, EB. auto.
  Qed.
End Three.
(** * dofs on the edges of an element *)
Lemma nth_error_flat_map {A B} (f : A -> list B) l m a j : nth_error l m = Some a -> j < length (f a) ->
  nth_error (flat_map f l) (sum (map (fun x => length (f x)) (firstn m l)) + j) = nth_error (f a) j.
Proof.
  revert m. induction l as [|x l IH]; intros [|m] Ha Hj; try discriminate; cbn [nth_error firstn map flat_map] in *.
  - injection Ha as ->. cbn. apply nth_error_app1. assumption.
  - rewrite sum_cons, nth_error_app2 by lia. rewrite <- (IH m Ha Hj). f_equal. lia.
Qed.
Section EdgeDofs.
  Context (px py pz : nat) (Fp : Forall (fun n => 1 <= n) [px; py; pz]).
  Notation p := [px; py; pz].
  Lemma elens0 : map (fun e => length (ecells px py pz nodes3 e)) edge_sides3 =
    [px+1; px+1; px+1; px+1; py+1; py+1; py+1; py+1; pz+1; pz+1; pz+1; pz+1].
  Proof.
    cbn [map edge_sides3]. repeat (apply f_equal2; [eapply len_edge; [exact Fp|apply nodes3_ok|cbn; tauto|left; reflexivity|reflexivity|
      cbn; rewrite ?seq_length; f_equal; lia]|]). reflexivity.
  Qed.
  Lemma elens1 : map (fun e => length (ecells px py pz edges3 e)) edge_sides3 =
    [px; px; px; px; py; py; py; py; pz; pz; pz; pz].
  Proof.
    cbn [map edge_sides3]. repeat (apply f_equal2; [eapply len_edge; [exact Fp|apply edges3_ok|cbn; tauto| |reflexivity|
      cbn; rewrite ?seq_length; f_equal; lia]; cbn; tauto|]). reflexivity.
  Qed.
  Lemma edge_dofs_gen ts a b c : map (fun e => length (ecells px py pz ts e)) edge_sides3 = [a; a; a; a; b; b; b; b; c; c; c; c] ->
    forall m e, nth_error edge_sides3 m = Some e ->
    exists l, edge_dofs [a; b; c] m = Some l /\ length l = length (filter (on_edge p e) (cells p ts)) /\
      forall j r, nth_error l j = Some r ->
        nth_error (on_edges p ts edge_sides3) r = option_map (pair e) (nth_error (filter (on_edge p e) (cells p ts)) j).
  Proof.
    intros H m e He.
    assert (G : exists l, edge_dofs [a; b; c] m = Some l /\
      l = map (fun x => sum (firstn m [a; a; a; a; b; b; b; b; c; c; c; c]) + x) (seq 0 (length (ecells px py pz ts e)))).
    { assert (Ln : Some (length (ecells px py pz ts e)) = nth_error [a; a; a; a; b; b; b; b; c; c; c; c] m).
      { rewrite <- H, nth_error_map, He. reflexivity. }
      do 12 (destruct m as [|m]; [cbn [nth_error] in Ln; injection Ln as ->; eexists; split; [reflexivity|];
        apply map_ext; intros x; unfold sum; cbn [firstn fold_right]; lia|]).
      destruct m; discriminate. }
    destruct G as (l & El & ->). exists (map (fun x => sum (firstn m [a; a; a; a; b; b; b; b; c; c; c; c]) + x) (seq 0 (length (ecells px py pz ts e)))).
    split; [exact El|]. split; [rewrite map_length, seq_length; reflexivity|]. intros j r Hj.
    rewrite nth_error_map_seq in Hj. destruct (Nat.ltb_spec j (length (ecells px py pz ts e))) as [L|]; [|discriminate]. injection Hj as <-. cbn [Nat.add].
    rewrite <- H, firstn_map. unfold on_edges.
    assert (Q := nth_error_flat_map (fun e => map (pair e) (filter (on_edge p e) (cells p ts))) edge_sides3 m e j He).
    cbv beta in Q. rewrite map_length in Q. specialize (Q L). rewrite nth_error_map in Q. rewrite <- Q. f_equal. f_equal. f_equal. apply map_ext. intros x. rewrite map_length. reflexivity.
  Qed.
  Lemma edge_dofs0_ok : forall m e, nth_error edge_sides3 m = Some e ->
    exists l, edge_dofs (map (fun x => x + 1) p) m = Some l /\ length l = length (filter (on_edge p e) (cells p nodes3)) /\
      forall j r, nth_error l j = Some r ->
        nth_error (on_edges p nodes3 edge_sides3) r = option_map (pair e) (nth_error (filter (on_edge p e) (cells p nodes3)) j).
  Proof. apply edge_dofs_gen, elens0. Qed.
  Lemma edge_dofs1_ok : forall m e, nth_error edge_sides3 m = Some e ->
    exists l, edge_dofs p m = Some l /\ length l = length (filter (on_edge p e) (cells p edges3)) /\
      forall j r, nth_error l j = Some r ->
        nth_error (on_edges p edges3 edge_sides3) r = option_map (pair e) (nth_error (filter (on_edge p e) (cells p edges3)) j).
  Proof. apply edge_dofs_gen, elens1. Qed.
End EdgeDofs.
(** * side by side *)
Lemma blocks_nth m ns N k B r c : nth_error (blocks m ns N) k = Some B -> B r c = N (m + sum (firstn k ns) + r) c.
Proof.
  revert m k. induction ns as [|n ns IH]; intros m [|k] H; try discriminate; cbn [blocks nth_error firstn] in *.
  - injection H as <-. rewrite Nat.add_0_r. reflexivity.
  - rewrite (IH _ _ H), sum_cons. f_equal. lia.
Qed.
Lemma blocks_restrict p ts sides (sg : nat * bool -> Z) M ns k s B r c x : restricts (on_sides p ts sides) (cells p ts) sg M ->
  ns = map (fun s => length (scells p ts s)) sides -> nth_error sides k = Some s -> nth_error (blocks 0 ns M) k = Some B ->
  nth_error (filter (on_side p s) (cells p ts)) r = Some x ->
  B r c = match nth_error (cells p ts) c with Some y => if cell_eqb x y then sg s else 0%Z | None => 0%Z end.
Proof.
  intros H -> Hk HB Hr. rewrite (blocks_nth _ _ _ _ _ _ _ HB). cbn [Nat.add]. rewrite H.
  assert (L : r < length (filter (on_side p s) (cells p ts))) by (apply nth_error_Some; congruence).
  assert (Q := nth_error_flat_map (fun s => map (pair s) (filter (on_side p s) (cells p ts))) sides k s r Hk).
  cbv beta in Q. rewrite map_length in Q. specialize (Q L). rewrite nth_error_map, Hr in Q. cbn [option_map] in Q.
  replace (nth_error (on_sides p ts sides) (sum (firstn k (map (fun s => length (scells p ts s)) sides)) + r)) with (Some (s, x)); [reflexivity|].
  rewrite <- Q. unfold on_sides. f_equal. f_equal. rewrite firstn_map. f_equal. apply map_ext. intros y. rewrite map_length. reflexivity.
Qed.
Lemma blocks_length m ns N : length (blocks m ns N) = length ns.
Proof. revert m. induction ns; intros m; cbn; auto. Qed.
Section Sides.
  Context (px py pz : nat) (Fp : Forall (fun n => 1 <= n) [px; py; pz]) (sg : nat * bool -> Z).
  Notation p := [px; py; pz].
  Lemma trace0_sides : exists M, trace0 sg p = Some M /\ side_blocks p nodes3 sg (blocks 0 (onsides on0 p) M).
  Proof.
    destruct (trace0_ok px py pz Fp sg) as (M & E & H). exists M. split; [exact E|]. intros k s B r c x.
    apply (blocks_restrict p nodes3 sides3 sg M); [exact H|]. symmetry. apply len0. exact Fp.
  Qed.
  Lemma trace1_sides : exists M, trace1 sg p = Some M /\ side_blocks p edges3 sg (blocks 0 (onsides on1 p) M).
  Proof.
    destruct (trace1_ok px py pz Fp sg) as (M & E & H). exists M. split; [exact E|]. intros k s B r c x.
    apply (blocks_restrict p edges3 sides3 sg M); [exact H|]. symmetry. apply len1. exact Fp.
  Qed.
  Lemma trace2_sides : exists M, trace2 sg p = Some M /\ side_blocks p faces3 sg (blocks 0 (onsides on2 p) M).
  Proof.
    destruct (trace2_ok px py pz Fp sg) as (M & E & H). exists M. split; [exact E|]. intros k s B r c x.
    apply (blocks_restrict p faces3 sides3 sg M); [exact H|]. symmetry. apply len2. exact Fp.
  Qed.
End Sides.
