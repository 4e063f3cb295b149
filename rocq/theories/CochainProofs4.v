(** Proofs about CochainModel: vectors of forms and back. *)
From Coq Require Import List Arith ZArith QArith Qcanon Bool Lia.
From Verif Require Import Prelude PreludeProofs AssembleModel MeshMapModel SpacingModel SpacingProofs GatherModel GatherSpec GatherProofs CochainModel CochainSpec CochainProofs CochainProofs2 CochainProofs3.
Import ListNotations.
Local Open Scope nat_scope.

Lemma length_full K ps : length (full_of K ps) = K.
Proof. unfold full_of. rewrite map_length, seq_length. reflexivity. Qed.
Lemma nth_full K ps d : d < K -> nth d (full_of K ps) q0 = qsum (map (fun p => entry_of p d) ps).
Proof.
  intros H. unfold full_of. set (g := fun d => _). rewrite (nth_indep _ q0 (g 0)) by (rewrite map_length, seq_length; exact H). rewrite map_nth, seq_nth by exact H. reflexivity.
Qed.
Lemma full_form_ok f K c : sound f K c -> exists V, full_of_form f = Some V /\ length V = K /\ forall r e v d, In (e, v) (nth r (f_gm f) []) -> In d v -> nth d V q0 = c d.
Proof.
  intros (HK & H). unfold full_of_form. rewrite HK. destruct (f_local f) as [locs|].
  - destruct H as (HA & HW).
    assert (G : exists ps, globe (f_whole f) (f_gm f) locs = Some ps /\ represents K ps (value (f_gm f) c)).
    { destruct (f_whole f) eqn:W.
      - destruct (globe_whole (f_gm f) K locs c HK HA (HW eq_refl)) as (ps & E & R & _). exists ps. auto.
      - destruct (globe_shared (f_gm f) K locs c HK HA) as (ps & E & R & _). exists ps. auto. }
    destruct G as (ps & E & R). rewrite E. exists (full_of K ps). split; [reflexivity|]. split; [apply length_full|]. intros r e v d He Hd.
    assert (B := K_bound _ _ HK r e v d He Hd). rewrite nth_full by exact B. rewrite (R d B). exact (value_at _ c r e v d He Hd).
  - exists (repeat q0 K). split; [reflexivity|]. split; [apply repeat_length|]. intros r e v d He Hd. rewrite H. apply nth_repeat.
Qed.
Lemma full_forms_ok fs Ks cs : Forall2 (fun f Kc => sound f (fst Kc) (snd Kc)) fs (combine Ks cs) -> length Ks = length cs ->
  exists V, full_of_forms fs = Some V /\ length V = sum Ks /\ forall j f c r e v d, nth_error fs j = Some f -> nth_error cs j = Some c -> In (e, v) (nth r (f_gm f) []) -> In d v -> nth (sum (firstn j Ks) + d) V q0 = c d.
Proof.
  revert fs cs. induction Ks as [|K Ks IH]; intros fs [|c cs] F L; try discriminate; cbn [combine] in F; inversion F as [|f ? fs' ? H F']; subst.
  - exists []. split; [reflexivity|]. split; [reflexivity|]. intros [|j]; discriminate.
  - destruct (full_form_ok f K c H) as (V1 & E1 & L1 & N1). destruct (IH fs' cs F' ltac:(cbn in L; lia)) as (V2 & E2 & L2 & N2).
    unfold full_of_forms in *. cbn [map all_some]. rewrite E1. destruct (all_some (map full_of_form fs')) as [Vs|]; [|discriminate]. cbn [option_map] in E2. injection E2 as <-.
    exists (V1 ++ concat Vs). split; [reflexivity|]. split; [rewrite app_length, L1, L2; reflexivity|]. intros [|j] f0 c0 r e v d Ef Ec He Hd.
    + cbn in Ef, Ec. injection Ef as <-. injection Ec as <-. cbn. rewrite app_nth1; [exact (N1 r e v d He Hd)|]. rewrite L1. exact (K_bound _ _ (proj1 H) r e v d He Hd).
    + cbn [nth_error] in Ef, Ec. cbn [firstn sum fold_right]. fold (sum (firstn j Ks)). rewrite app_nth2 by lia. replace (K + sum (firstn j Ks) + d - length V1) with (sum (firstn j Ks) + d) by lia. exact (N2 j f0 c0 r e v d Ef Ec He Hd).
Qed.
Lemma forms_dofs fs Ks cs : Forall2 (fun f Kc => sound f (fst Kc) (snd Kc)) fs (combine Ks cs) -> length Ks = length cs -> Forall2 (fun g n => global_num_dofs g = Some n) (map f_gm fs) Ks.
Proof.
  revert fs cs. induction Ks as [|K Ks IH]; intros fs [|c cs] F L; try discriminate; cbn [combine] in F; inversion F as [|f ? fs' ? H F']; subst; cbn [map]; constructor; [exact (proj1 H)|]. apply (IH fs' cs F'). cbn in L. lia.
Qed.
(** cochains of forms, put into one vector, come back *)
Theorem round_trip fs Ks cs : Forall2 (fun f Kc => sound f (fst Kc) (snd Kc)) fs (combine Ks cs) -> length Ks = length cs ->
  exists V ls, full_of_forms fs = Some V /\ length V = sum Ks /\
    (forall j f c r e v d, nth_error fs j = Some f -> nth_error cs j = Some c -> In (e, v) (nth r (f_gm f) []) -> In d v -> nth (sum (firstn j Ks) + d) V q0 = c d) /\
    distributed_to V (map (fun f => Some (f_gm f)) fs) = Some (map Some ls) /\ length ls = length fs /\
    forall j f c l, nth_error fs j = Some f -> nth_error cs j = Some c -> nth_error ls j = Some l -> restored (f_gm f) c l.
Proof.
  intros F L. destruct (full_forms_ok fs Ks cs F L) as (V & E & LV & N). destruct (proj1 (distributed_ok V (map f_gm fs) Ks (forms_dofs fs Ks cs F L)) ltac:(lia)) as (ls & El & Ll & R).
  exists V, ls. rewrite map_map in El. rewrite map_length in Ll. repeat (split; [assumption|]). intros j f c l Ef Ec El'. generalize (R j (f_gm f) l). rewrite nth_error_map, Ef. intros G. specialize (G eq_refl El').
  revert G. apply restored_ext. intros r e v d He Hd. exact (N j f c r e v d Ef Ec He Hd).
Qed.
(** one form *)
Theorem round_trip1 gms K V : global_num_dofs gms = Some K ->
  (K <= length V -> exists locs', set_full gms V = Some locs' /\ restored gms (fun d => nth d V q0) locs') /\ (length V < K -> set_full gms V = None).
Proof. intros H. split; intros L; [exact (set_full_ok gms K V H L)|exact (set_full_short gms K V H L)]. Qed.
Theorem round_trip_any b gms K locs c : sound (mkForm b gms (Some locs)) K c ->
  exists ps locs', globe b gms locs = Some ps /\ set_full gms (full_of K ps) = Some locs' /\ restored gms c locs'.
Proof.
  intros H. destruct (full_form_ok _ K c H) as (V & E & L & N). unfold full_of_form in E. cbn [f_gm f_local f_whole] in E, N. rewrite (proj1 H : global_num_dofs gms = Some K) in E. destruct (globe b gms locs) as [ps|]; [|discriminate]. cbn in E. injection E as <-.
  destruct (set_full_ok gms K _ (proj1 H : global_num_dofs gms = Some K) (Nat.eq_le_incl _ _ (eq_sym L))) as (locs' & E' & R). exists ps, locs'. split; [reflexivity|]. split; [exact E'|]. revert R. apply restored_ext. exact N.
Qed.

(** * chained *)
Lemma length_cut nbs : forall x, length (cut x nbs) = length nbs.
Proof. induction nbs as [|n nbs IH]; intros x; [reflexivity|]. cbn. rewrite IH. reflexivity. Qed.
Lemma nth_firstn_q : forall n (l : list Qc) d, d < n -> nth d (firstn n l) q0 = nth d l q0.
Proof. induction n as [|n IH]; intros [|x l] [|d] H; cbn; try reflexivity; try lia. apply IH. lia. Qed.
Lemma nth_skipn_q : forall (l : list Qc) a d, nth d (skipn a l) q0 = nth (a + d) l q0.
Proof. induction l as [|x l IH]; intros [|b] e; cbn; try reflexivity; [now destruct e|apply IH]. Qed.
Lemma cut_nth nbs : forall x j n, length x = sum nbs -> nth_error nbs j = Some n -> length (nth j (cut x nbs) []) = n /\ forall i, i < n -> nth i (nth j (cut x nbs) []) q0 = nth (sum (firstn j nbs) + i) x q0.
Proof.
  induction nbs as [|n0 nbs IH]; intros x [|j] n L H; try discriminate; cbn [nth_error] in H; cbn [sum fold_right] in L; fold (sum nbs) in L; cbn [cut nth firstn].
  - injection H as ->. split; [rewrite firstn_length; lia|]. intros i Hi. apply nth_firstn_q. exact Hi.
  - destruct (IH (skipn n0 x) j n) as (A & B); [rewrite skipn_length; lia|exact H|]. split; [exact A|]. intros i Hi. rewrite (B i Hi), nth_skipn_q. cbn [sum fold_right]. fold (sum (firstn j nbs)). f_equal. lia.
Qed.
Theorem chain_ok V cgm els nbs : (forall r l e, nth_error els r = Some l -> In e l -> exists w, cgm r e = Some w /\ length w = sum nbs /\ Forall (fun d => d < length V) w) ->
  exists out, distributed_chain V cgm els nbs = Some out /\ length out = length nbs /\
    forall j n o, nth_error nbs j = Some n -> nth_error out j = Some o -> map (map fst) o = els /\
      forall r l e w, nth_error els r = Some l -> In e l -> cgm r e = Some w -> exists x, In (e, x) (nth r o []) /\ length x = n /\ forall i, i < n -> nth i x q0 = nth (nth (sum (firstn j nbs) + i) w 0) V q0.
Proof.
  intros H. set (val := fun r e => match cgm r e with Some w => map (fun d => nth d V q0) w | None => [] end).
  set (alls := map (fun res : nat * list nat => map (fun e => (e, val (fst res) e)) (snd res)) (combine (seq 0 (length els)) els)).
  assert (IN : forall r l, In (r, l) (combine (seq 0 (length els)) els) -> nth_error els r = Some l).
  { assert (G : forall (E : list (list nat)) a r l, In (r, l) (combine (seq a (length E)) E) -> a <= r /\ nth_error E (r - a) = Some l).
    { induction E as [|x E IH]; intros a r l Hi; [destruct Hi|]. cbn [length seq combine] in Hi. destruct Hi as [[= <- <-]|Hi]; [rewrite Nat.sub_diag; split; [lia|reflexivity]|]. apply IH in Hi as (A & B). split; [lia|]. replace (r - a) with (S (r - S a)) by lia. exact B. }
    intros r l Hi. apply G in Hi as (_ & B). rewrite Nat.sub_0_r in B. exact B. }
  assert (E : all_some (map (fun res : nat * list nat => all_some (map (fun e => match cgm (fst res) e with
          | Some v => option_map (pair e) (all_some (map (nth_error V) v)) | None => None end) (snd res))) (combine (seq 0 (length els)) els)) = Some alls).
  { apply all_some_map. intros [r l] Hi. apply IN in Hi. cbn [fst snd]. apply all_some_map. intros e He. destruct (H r l e Hi He) as (w & Ew & Lw & Fw). unfold val. rewrite Ew, take_ok by exact Fw. reflexivity. }
  unfold distributed_chain. match goal with |- context [match ?X with Some _ => _ | None => _ end = Some _] => replace X with (Some alls) by (symmetry; exact E) end. eexists. split; [reflexivity|]. split; [rewrite map_length, seq_length; reflexivity|]. intros j n o En Eo.
  assert (Hj : j < length nbs) by (apply nth_error_Some; congruence). rewrite nth_error_map in Eo. assert (X : nth_error (seq 0 (length nbs)) j = Some j). { rewrite (nth_error_nth' _ 0) by (rewrite seq_length; exact Hj). rewrite seq_nth by exact Hj. reflexivity. }
  rewrite X in Eo. cbn [option_map] in Eo. injection Eo as <-. unfold alls. split.
  - rewrite !map_map. assert (Y : forall (Es : list (list nat)) a, map (fun x : nat * list nat => map fst (map (fun ex : nat * list Qc => (fst ex, nth j (cut (snd ex) nbs) [])) (map (fun e => (e, val (fst x) e)) (snd x)))) (combine (seq a (length Es)) Es) = Es).
    { induction Es as [|l Es IH]; intros a; [reflexivity|]. cbn [length seq combine map fst snd]. rewrite IH. f_equal. rewrite !map_map. cbn [fst]. apply map_id. }
    apply Y.
  - intros r l e w El He Ew. exists (nth j (cut (val r e) nbs) []). destruct (H r l e El He) as (w' & Ew' & Lw & Fw). assert (w' = w) by congruence. subst w'.
    assert (Lv : length (val r e) = sum nbs) by (unfold val; rewrite Ew, map_length; exact Lw). destruct (cut_nth nbs (val r e) j n Lv En) as (A & B). split.
    + rewrite map_map. set (g := fun x : nat * list nat => _). assert (Z : nth_error (map g (combine (seq 0 (length els)) els)) r = Some (g (r, l))).
      { rewrite nth_error_map. replace (nth_error (combine (seq 0 (length els)) els) r) with (Some (r, l)); [reflexivity|]. symmetry.
        assert (G : forall (Es : list (list nat)) a q, nth_error Es q = Some l -> nth_error (combine (seq a (length Es)) Es) q = Some (a + q, l)).
        { induction Es as [|y Es IH]; intros a [|q] Q; try discriminate; cbn [nth_error length seq combine] in *; [injection Q as ->; rewrite Nat.add_0_r; reflexivity|]. rewrite (IH (S a) q Q). do 2 f_equal. lia. }
        exact (G els 0 r El). }
      rewrite (nth_error_nth _ _ _ Z). unfold g. cbn [fst snd]. apply in_map_iff. exists (e, val r e). split; [reflexivity|]. apply in_map_iff. exists e. auto.
    + split; [exact A|]. intros i Hi. rewrite (B i Hi). unfold val. rewrite Ew. assert (T : sum (firstn j nbs) + i < length w).
      { rewrite Lw. assert (S1 : sum nbs = sum (firstn j nbs) + sum (skipn j nbs)) by (rewrite <- sum_app, firstn_skipn; reflexivity). assert (S2 : skipn j nbs = n :: skipn (S j) nbs).
        { clear - En. revert nbs En. induction j as [|j IH]; intros [|m nbs] En; try discriminate; cbn in *; [injection En as ->; reflexivity|apply IH; exact En]. }
        rewrite S2 in S1. cbn [sum fold_right] in S1. fold (sum (skipn (S j) nbs)) in S1. lia. }
      set (h := fun d => nth d V q0). change q0 with (h (length V)) || idtac. rewrite (nth_indep _ q0 (h 0)) by (rewrite map_length; exact T). rewrite map_nth. reflexivity.
Qed.

(** * the round trips, as stated *)
Theorem shared_trip gms K locs c : global_num_dofs gms = Some K -> agrees gms locs c ->
  exists ps, globe false gms locs = Some ps /\ length ps = length gms /\ master_dominating ps = true /\
    (forall r d, on_core gms r d -> qsum (map (fun p => entry_of p d) ps) = c d) /\
    forall junk, exists locs', set_globe junk gms K ps = Some locs' /\ restored gms c locs'.
Proof.
  intros HK HA. destruct (globe_shared gms K locs c HK HA) as (ps & E & R & L & M). exists ps. repeat (split; [assumption|]). split.
  - intros r d (e & v & He & Hd). rewrite (R d (K_bound gms K HK r e v d He Hd)). exact (value_at gms c r e v d He Hd).
  - intros junk. exact (set_shared gms K c HK junk ps R M).
Qed.
Theorem whole_trip gms K locs c : global_num_dofs gms = Some K -> agrees gms locs c -> (forall r r' d, on_core gms r d -> on_core gms r' d -> r = r') ->
  exists ps, globe true gms locs = Some ps /\ length ps = length gms /\
    (forall r d, on_core gms r d -> qsum (map (fun p => entry_of p d) ps) = c d) /\
    forall junk, exists locs', set_globe junk gms K ps = Some locs' /\
      ((forall r d, 0 < r -> on_core gms r d -> c d = q0) -> restored gms c locs') /\
      (~ (forall r d, 0 < r -> on_core gms r d -> c d = q0) -> restored gms (fun d => if is0 (c d) then junk d else c d) locs').
Proof.
  intros HK HA HW. destruct (globe_whole gms K locs c HK HA HW) as (ps & E & R & L & S). exists ps. repeat (split; [assumption|]). split.
  - intros r d (e & v & He & Hd). rewrite (R d (K_bound gms K HK r e v d He Hd)). exact (value_at gms c r e v d He Hd).
  - intros junk. destruct (S junk) as (locs' & E' & R' & M). exists locs'. split; [exact E'|]. split; intros H.
    + rewrite (proj2 M H) in R'. exact R'.
    + destruct (master_dominating ps) eqn:D; [exfalso; apply H; exact (proj1 M eq_refl)|exact R'].
Qed.
Theorem whole_refuted : exists gms K locs c junk ps locs', global_num_dofs gms = Some K /\ agrees gms locs c /\
  (forall r r' d, on_core gms r d -> on_core gms r' d -> r = r') /\ globe true gms locs = Some ps /\ set_globe junk gms K ps = Some locs' /\ ~ restored gms c locs'.
Proof.
  exists [[(0, [0; 1])]; [(1, [2; 3])]], 4, [[(0, [qnat 1; qnat 0])]; [(1, [qnat 1; qnat 1])]], (fun d => if d =? 1 then q0 else qnat 1), (fun _ => qnat 9).
  exists [[(0, qnat 1)]; [(2, qnat 1); (3, qnat 1)]], [[(0, [qnat 1; qnat 9])]; [(1, [qnat 1; qnat 1])]].
  split; [reflexivity|]. split; [split; [reflexivity|]; intros [|[|r]] e v H; cbn in H; [destruct H as [[= <- <-]|[]]; reflexivity|destruct H as [[= <- <-]|[]]; reflexivity|destruct r; contradiction]|].
  split. { intros r r' d (e & v & H & Hd) (e' & v' & H' & Hd'). destruct r as [|[|r]], r' as [|[|r']]; try reflexivity; cbn in H, H'; try (destruct r; contradiction); try (destruct r'; contradiction);
    destruct H as [[= <- <-]|[]], H' as [[= <- <-]|[]]; cbn in Hd, Hd'; lia. }
  split; [vm_compute; reflexivity|]. split; [vm_compute; reflexivity|]. intros (_ & R). specialize (R 0 0 [0; 1] (or_introl eq_refl)). destruct R as [R|[]]. apply (f_equal (fun ex => Qnum (this (nth 1 (snd ex) q0)))) in R. vm_compute in R. discriminate.
Qed.
