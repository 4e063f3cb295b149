(** Proofs about CochainModel: the round trips of global cochains. *)
From Coq Require Import List Arith ZArith QArith Qcanon Bool Lia.
From Verif Require Import Prelude PreludeProofs AssembleModel MeshMapModel SpacingModel SpacingProofs GatherModel GatherSpec GatherProofs CochainModel CochainSpec CochainProofs.
From Verif Require SpaceProofs.
Import ListNotations.
Local Open Scope nat_scope.

Lemma parts_ok K ps : (forall d, d < K -> length (filter (fun p => mem d (map fst p)) ps) <= 1) -> DistributedVector K ps = Some ps.
Proof. intros H. unfold DistributedVector. rewrite (proj2 (forallb_forall _ _)); [reflexivity|]. intros d Hd. apply in_seq in Hd. apply Nat.leb_le. apply H. lia. Qed.
Lemma no_entries (l : list part) d : (forall p, In p l -> p = []) -> qsum (map (fun p => entry_of p d) l) = q0.
Proof. induction l as [|p l IH]; intros H; [reflexivity|]. cbn [map]. unfold qsum. cbn [fold_right]. fold (qsum (map (fun p => entry_of p d) l)). rewrite IH by (intros; apply H; now right). rewrite (H p (or_introl eq_refl)). cbn. unfold q0. ring. Qed.
Lemma dominating_iff ps : master_dominating ps = true <-> forall p, In p (tl ps) -> p = [].
Proof. unfold master_dominating. rewrite forallb_forall. split; intros H p Hp; [apply H, Nat.eqb_eq in Hp; now destruct p|]. rewrite (H p Hp). reflexivity. Qed.
Lemma dominating_sum ps d : master_dominating ps = true -> qsum (map (fun p => entry_of p d) ps) = entry_of (hd [] ps) d.
Proof.
  intros H. destruct ps as [|p ps]; [reflexivity|]. cbn [map hd]. unfold qsum. cbn [fold_right]. fold (qsum (map (fun p => entry_of p d) ps)). rewrite no_entries by exact (proj1 (dominating_iff _) H). unfold q0. ring.
Qed.
Lemma no_holders (l : list part) d : (forall p, In p l -> p = []) -> filter (fun p => mem d (map fst p)) l = [].
Proof. induction l as [|p l IH]; intros H; [reflexivity|]. cbn [filter]. rewrite (H p (or_introl eq_refl)). cbn. apply IH. intros; apply H; now right. Qed.
(** what is gathered by the setter *)
Lemma put_parts c ps f d : (forall p, In p ps -> map snd p = map c (map fst p)) -> fold_left (fun f p => put f (map fst p) (map snd p)) ps f d = if existsb (fun p => mem d (map fst p)) ps then c d else f d.
Proof.
  revert f. induction ps as [|p ps IH]; intros f H; [reflexivity|]. cbn [fold_left existsb]. rewrite IH by (intros; apply H; now right). rewrite (H p (or_introl eq_refl)), put_map. destruct (existsb _ ps), (mem d (map fst p)); reflexivity.
Qed.
Lemma existsb_holders ps d : existsb (fun p => mem d (map fst p)) ps = true <-> exists p : part, In p ps /\ mem d (map fst p) = true.
Proof. apply existsb_exists. Qed.
(** the setter writes the vector *)
Lemma in_local_range (gms : GMat) r e v d : In (e, v) (nth r gms []) -> In d v -> forall VV, sent VV (local_range gms r) d = VV d.
Proof.
  intros He Hd VV. unfold local_range. change (nth r gms []) with (gm_local gms r) in He. destruct (gm_local gms r) as [|x l] eqn:E; [destruct He|]. rewrite <- E in He.
  assert (Hl : In d (local_dofs gms r)) by (unfold local_dofs; apply in_concat; exists v; split; [apply in_map_iff; exists (e, v); auto|exact Hd]).
  unfold sent. rewrite (proj2 (Nat.leb_le _ _)) by (apply minl_in; exact Hl). rewrite (proj2 (Nat.ltb_lt _ _)) by (apply in_maxl in Hl; lia). reflexivity.
Qed.
Lemma set_ok gms K junk ps : global_num_dofs gms = Some K -> exists locs', set_globe junk gms K ps = Some locs' /\ restored gms (gathered_V junk ps) locs'.
Proof.
  intros HK. unfold set_globe. rewrite HK, Nat.eqb_refl. eexists. split; [reflexivity|]. split.
  - rewrite map_map. transitivity (map (fun r => map fst (nth r gms [])) (seq 0 (length gms))).
    + apply map_ext. intros r. rewrite map_map. reflexivity.
    + rewrite <- (map_map (fun r => nth r gms []) (map fst)). f_equal. symmetry. apply (nth_ext _ _ [] []); [now rewrite map_length, seq_length|]. intros n Hn. rewrite (nth_indep (map _ _) [] (nth 0 gms [])) by (rewrite map_length, seq_length; exact Hn).
      rewrite (map_nth (fun r => nth r gms [])). rewrite seq_nth by exact Hn. reflexivity.
  - intros r e v He. assert (Hr : r < length gms) by (destruct (Nat.lt_ge_cases r (length gms)); [assumption|rewrite nth_overflow in He by assumption; destruct He]).
    set (g := fun r => map (fun ev => (fst ev, map (sent (gathered_V junk ps) (local_range gms r)) (snd ev))) (gm_local gms r)). rewrite (nth_indep _ [] (g 0)) by (rewrite map_length, seq_length; exact Hr). rewrite (map_nth g). rewrite seq_nth by exact Hr. cbn [Nat.add].
    unfold g. apply in_map_iff. exists (e, v). split; [|exact He]. cbn [fst snd]. f_equal. apply map_ext_in. intros d Hd. apply (in_local_range gms r e v d He Hd).
Qed.
Lemma restored_ext gms c c' locs' : (forall r e v d, In (e, v) (nth r gms []) -> In d v -> c d = c' d) -> restored gms c locs' -> restored gms c' locs'.
Proof. intros H [A B]. split; [exact A|]. intros r e v He. rewrite <- (map_ext_in c c'); [apply B; exact He|]. intros d Hd. exact (H r e v d He Hd). Qed.

Section Trips.
  Variables (gms : GMat) (K : nat) (locs : list lcoch) (c : nat -> Qc).
  Hypothesis HK : global_num_dofs gms = Some K.
  Hypothesis HA : agrees gms locs c.
  Lemma K_pos : gms <> [].
  Proof. intros ->. discriminate HK. Qed.
  Let val := value gms c.
  Theorem globe_shared : exists ps, globe false gms locs = Some ps /\ represents K ps val /\ length ps = length gms /\ master_dominating ps = true.
  Proof.
    destruct (rows_ok gms K locs c HK HA) as (rows & E & HR). unfold globe. rewrite HK, E. set (ps := map (stored K) rows).
    assert (Lr : length rows = length gms) by (symmetry; apply (F2_len _ _ _ HR)).
    destruct rows as [|f0 fl]; [exfalso; cbn in Lr; apply K_pos; destruct gms; [reflexivity|discriminate]|]. change ps with (stored K f0 :: map (stored K) fl) at 1. cbn [map]. set (pl := map (stored K) fl).
    assert (Lp : length gms = S (length pl)) by (unfold pl; rewrite map_length; cbn in Lr; lia).
    set (q := stored K (average ps) :: map (fun _ => []) pl).
    rewrite parts_ok.
    - assert (MD : master_dominating q = true) by (apply dominating_iff; intros p Hp; cbn [q tl] in Hp; apply in_map_iff in Hp as (x & <- & _); reflexivity). rewrite MD. exists q. split; [reflexivity|]. split; [|split; [|exact MD]].
      + intros d Hd. rewrite dominating_sum by exact MD. cbn [q hd]. rewrite stored_entry. rewrite (proj2 (Nat.ltb_lt _ _)) by exact Hd. apply (average_value gms K c HK (f0 :: fl) HR d Hd).
      + cbn [q length]. rewrite map_length. lia.
    - intros d Hd. unfold q. cbn [filter]. rewrite no_holders by (intros p Hp; apply in_map_iff in Hp as (x & <- & _); reflexivity). destruct (mem d _); cbn; lia.
  Qed.
  Theorem set_shared junk ps : represents K ps val -> master_dominating ps = true -> exists locs', set_globe junk gms K ps = Some locs' /\ restored gms c locs'.
  Proof.
    intros R MD. destruct (set_ok gms K junk ps HK) as (locs' & E & S). exists locs'. split; [exact E|]. revert S. apply restored_ext. intros r e v d He Hd. unfold gathered_V. rewrite MD.
    rewrite <- dominating_sum by exact MD. rewrite (R d (K_bound gms K HK r e v d He Hd)). exact (value_at gms c r e v d He Hd).
  Qed.
  Hypothesis HW : forall r r' d, on_core gms r d -> on_core gms r' d -> r = r'.
  Theorem globe_whole : exists ps, globe true gms locs = Some ps /\ represents K ps val /\ length ps = length gms /\
    forall junk, exists locs', set_globe junk gms K ps = Some locs' /\
      restored gms (fun d => if master_dominating ps then c d else if is0 (c d) then junk d else c d) locs' /\
      (master_dominating ps = true <-> forall r d, 0 < r -> on_core gms r d -> c d = q0).
  Proof.
    destruct (rows_ok gms K locs c HK HA) as (rows & E & HR). unfold globe. rewrite HK, E. set (ps := map (stored K) rows).
    assert (H1 : forall d, d < K -> length (filter (fun p => mem d (map fst p)) ps) <= 1).
    { intros d Hd. apply filter_le1. intros i j a b Ha Hb Ma Mb. apply (part_keys gms K c HK rows HR i a d Ha) in Ma as [Oa _]. apply (part_keys gms K c HK rows HR j b d Hb) in Mb as [Ob _]. exact (HW i j d Oa Ob). }
    exists ps. rewrite parts_ok by exact H1. split; [reflexivity|]. split; [|split].
    - intros d Hd. unfold ps. rewrite (sum_value gms K c HK rows HR d Hd). assert (X := H1 d Hd). change (length (filter (fun p => mem d (map fst p)) ps)) with (holders K rows d) in X.
      destruct (holders K rows d) as [|[|n]] eqn:Hn; [|change (qnat 1) with (Q2Qc 1); fold val; ring|lia]. unfold val. rewrite (holders_0 gms K c HK rows HR d Hn). unfold q0. ring.
    - unfold ps. rewrite map_length. symmetry. apply (F2_len _ _ _ HR).
    - intros junk. destruct (set_ok gms K junk ps HK) as (locs' & Es & Rs). exists locs'. split; [exact Es|]. split.
      + revert Rs. apply restored_ext. intros r e v d He Hd. assert (Kd := K_bound gms K HK r e v d He Hd). assert (V := value_at gms c r e v d He Hd). unfold gathered_V. destruct (master_dominating ps) eqn:MD.
        * rewrite <- dominating_sum by exact MD. assert (X := H1 d Kd). unfold ps. rewrite (sum_value gms K c HK rows HR d Kd). change (length (filter (fun p => mem d (map fst p)) ps)) with (holders K rows d) in X.
          destruct (holders K rows d) as [|[|n]] eqn:Hn; [|change (qnat 1) with (Q2Qc 1); rewrite V; ring|lia]. rewrite <- V, (holders_0 gms K c HK rows HR d Hn). unfold q0. ring.
        * rewrite (put_parts c) by (intros p Hp; apply (part_values gms K c rows HR p Hp)). destruct (existsb (fun p : list (nat * Qc) => mem d (map fst p)) ps) eqn:X.
          -- apply existsb_holders in X. apply (value_stored gms K c HK rows HR d) in X. rewrite V in X. destruct (is0 (c d)) eqn:Z; [apply is0_iff in Z; contradiction|reflexivity].
          -- destruct (is0 (c d)) eqn:Z; [reflexivity|]. exfalso. assert (N : value gms c d <> q0) by (rewrite V; intros Q; apply is0_iff in Q; congruence).
             apply (value_stored gms K c HK rows HR d) in N. apply existsb_holders in N. assert (Q := eq_trans (eq_sym X) N). discriminate.
      + split.
        * intros MD r d Hr Oc. destruct (Qc_eq_dec (c d) q0) as [Z|N]; [exact Z|exfalso]. destruct (nth_error ps r) as [p|] eqn:Ep.
          -- assert (M := proj2 (part_keys gms K c HK rows HR r p d Ep) (conj Oc N)). assert (Q : p = []); [|rewrite Q in M; discriminate].
             apply (proj1 (dominating_iff ps) MD). destruct ps as [|x l]; [destruct r; discriminate|]. destruct r; [lia|]. cbn in Ep. cbn. eapply nth_error_In; exact Ep.
          -- apply nth_error_None in Ep. unfold ps in Ep. rewrite map_length, <- (F2_len _ _ _ HR) in Ep. destruct Oc as (e & v & He & _). rewrite nth_overflow in He by exact Ep. destruct He.
        * intros H. apply dominating_iff. intros p Hp. assert (Ex : exists r, nth_error ps (S r) = Some p) by (destruct ps as [|x l]; [destruct Hp|cbn in Hp; apply In_nth_error in Hp as (r & Hr); exists r; exact Hr]).
          destruct Ex as (r & Hr). destruct p as [|[d x] p]; [reflexivity|exfalso]. assert (M : mem d (map fst ((d, x) :: p)) = true) by (apply mem_in; now left).
          apply (part_keys gms K c HK rows HR (S r) _ d Hr) in M as [Oc N]. apply N. apply (H (S r) d); [lia|exact Oc].
  Qed.
End Trips.
