(** Element distribution. *)
From Coq Require Import List Arith Bool Lia ZArith.
From Verif Require Import Prelude PreludeProofs SpaceModel SpaceProofs MiscModel MiscProofs2 MeshModel MeshSpec MeshProofs.
Import ListNotations.
Local Open Scope nat_scope.

Lemma sum_rev l : sum (rev l) = sum l.
Proof. induction l as [|x l IH]; [reflexivity|]. cbn [rev]. rewrite sum_app, IH, !sum_cons. unfold sum at 2. cbn. lia. Qed.
Lemma sum_concat ls : sum (concat ls) = sum (map sum ls).
Proof. induction ls as [|l ls IH]; [reflexivity|]. cbn [concat map]. rewrite sum_app, sum_cons, IH. reflexivity. Qed.
Lemma evenly_length n k : length (evenly n k) = k.
Proof. unfold evenly. rewrite map_length, seq_length. reflexivity. Qed.
Lemma sum_step c r k : sum (map (fun x => c + (if x <? r then 1 else 0)) (seq 0 k)) = k * c + Nat.min k r.
Proof.
  induction k as [|k IH]; [reflexivity|]. rewrite sum_map_seq_S, IH. cbn [Nat.add]. destruct (Nat.ltb_spec k r); lia.
Qed.
Lemma evenly_sum n k : 1 <= k -> sum (evenly n k) = n.
Proof.
  intros H. unfold evenly. rewrite sum_step. assert (D := Nat.div_mod_eq n k). assert (n mod k < k) by (apply Nat.mod_upper_bound; lia).
  rewrite Nat.min_r by lia. lia.
Qed.
Lemma evenly_pos n k x : 1 <= k <= n -> In x (evenly n k) -> 1 <= x.
Proof.
  intros H Hx. unfold evenly in Hx. apply in_map_iff in Hx. destruct Hx as (y & <- & _).
  assert (1 <= n / k) by (apply Nat.div_le_lower_bound; lia). destruct (y <? n mod k); lia.
Qed.

(** * consecutive ranges *)
Lemma ranges_concat b d : concat (element_ranges b d) = seq b (sum d).
Proof.
  revert b. induction d as [|n d IH]; intros b; [reflexivity|]. cbn [element_ranges concat]. rewrite IH, sum_cons, seq_app. reflexivity.
Qed.
Lemma ranges_length b d : length (element_ranges b d) = length d.
Proof. revert b. induction d as [|n d IH]; intros b; cbn; auto. Qed.
Lemma ranges_ok SIZE n d : length d = SIZE -> sum d = n -> partition SIZE n (element_ranges 0 d).
Proof. intros <- <-. split; [apply ranges_length|apply ranges_concat]. Qed.
Lemma ranges_nth b d c l : nth_error (element_ranges b d) c = Some l -> l = seq (b + sum (firstn c d)) (at_core d c).
Proof.
  revert b c. induction d as [|n d IH]; intros b [|c] H; try discriminate; cbn in H.
  - injection H as <-. cbn. rewrite Nat.add_0_r. reflexivity.
  - rewrite (IH _ _ H). cbn [firstn at_core nth]. rewrite sum_cons. unfold at_core. cbn [nth]. f_equal. lia.
Qed.

(** * grouping *)
Lemma pop_groups_concat ks : forall l : list nat, concat (pop_groups ks l) = firstn (sum ks) l.
Proof.
  induction ks as [|k ks IH]; intros l; [reflexivity|]. cbn [pop_groups concat]. rewrite IH, sum_cons.
  rewrite <- (firstn_skipn k l) at 3. rewrite firstn_app. f_equal.
  - rewrite firstn_firstn. f_equal. lia.
  - destruct (Nat.le_gt_cases k (length l)) as [H|H].
    + rewrite firstn_length_le by exact H. f_equal. lia.
    + rewrite skipn_all2 by lia. rewrite !firstn_nil. reflexivity.
Qed.
Lemma pop_groups_length ks l : length (pop_groups ks l) = length ks.
Proof. revert l. induction ks as [|k ks IH]; intros l; cbn; auto. Qed.
Lemma pop_groups_lengths ks : forall l, sum ks <= length l -> map (@length nat) (pop_groups ks l) = ks.
Proof.
  induction ks as [|k ks IH]; intros l H; [reflexivity|]. cbn [pop_groups map]. rewrite sum_cons in H.
  rewrite firstn_length_le by lia. f_equal. apply IH. rewrite skipn_length. lia.
Qed.
Lemma map_add_seq c n b : map (fun j => j + c) (seq b n) = seq (b + c) n.
Proof. revert b. induction n as [|n IH]; intros b; cbn; [reflexivity|]. f_equal. apply IH. Qed.
Lemma blocks_seq k : forall n a, concat (map (fun i => map (fun j => j + k * i) (seq 0 k)) (seq a n)) = seq (k * a) (k * n).
Proof.
  induction n as [|n IH]; intros a; [rewrite Nat.mul_0_r; reflexivity|]. cbn [seq map concat]. rewrite IH, map_add_seq.
  replace (k * S n) with (k + k * n) by lia. rewrite seq_app. f_equal. f_equal. lia.
Qed.
Lemma region_cores_concat SIZE nrs : 1 <= nrs <= SIZE -> concat (region_cores SIZE nrs) = seq 0 SIZE /\ length (region_cores SIZE nrs) = nrs.
Proof.
  intros H. unfold region_cores. destruct ((nrs =? 1) || (SIZE mod nrs =? 0)) eqn:E.
  - rewrite blocks_seq, map_length, seq_length. split; [|reflexivity]. rewrite Nat.mul_0_r. f_equal.
    assert (SIZE mod nrs = 0).
    { destruct (Nat.eq_dec nrs 1) as [->|N]; [apply Nat.mod_1_r|]. rewrite (proj2 (Nat.eqb_neq nrs 1) N) in E. apply Nat.eqb_eq in E. exact E. }
    assert (D := Nat.div_mod_eq SIZE nrs). lia.
  - rewrite pop_groups_concat, pop_groups_length, evenly_sum, evenly_length by lia. split; [|reflexivity]. apply firstn_all2. rewrite seq_length. lia.
Qed.
Lemma region_cores_pos SIZE nrs cs : 1 <= nrs <= SIZE -> In cs (region_cores SIZE nrs) -> 1 <= length cs.
Proof.
  intros H. unfold region_cores. destruct ((nrs =? 1) || (SIZE mod nrs =? 0)) eqn:E; intros Hc.
  - apply in_map_iff in Hc. destruct Hc as (i & <- & _). rewrite map_length, seq_length. apply Nat.div_le_lower_bound; lia.
  - assert (L := pop_groups_lengths (evenly SIZE nrs) (seq 0 SIZE)). rewrite seq_length, evenly_sum in L by lia. specialize (L (le_n _)).
    apply (evenly_pos SIZE nrs); [lia|]. rewrite <- L. apply in_map. exact Hc.
Qed.

(** numbers listed core by core, region by region *)
Lemma split_by rc : forall nss pre, concat rc = seq (length pre) (length (concat rc)) -> Forall2 (fun cs ns => length cs = length ns) rc nss ->
  Forall2 (fun cs ns => map (at_core (pre ++ concat nss)) cs = ns) rc nss.
Proof.
  induction rc as [|cs rc IH]; intros nss pre C F; inversion F as [|? ns ? nss' L F']; subst; constructor.
  - cbn [concat] in *. rewrite app_length, seq_app in C.
    assert (E : cs = seq (length pre) (length cs)).
    { apply (f_equal (firstn (length cs))) in C. rewrite firstn_app, firstn_all, Nat.sub_diag, firstn_O, app_nil_r in C.
      rewrite firstn_app, seq_length, Nat.sub_diag, firstn_O, app_nil_r in C. rewrite firstn_all2 in C by (rewrite seq_length; lia). exact C. }
    rewrite E, L. unfold at_core. rewrite app_assoc. clear. revert pre. induction ns as [|n ns IH]; intros pre; cbn [length seq map]; [reflexivity|].
    f_equal.
    + rewrite <- app_assoc. rewrite app_nth2 by lia. rewrite Nat.sub_diag. reflexivity.
    + specialize (IH (pre ++ [n])). rewrite app_length in IH. cbn [length] in IH. replace (length pre + 1) with (S (length pre)) in IH by lia.
      rewrite <- (app_assoc pre [n] ns) in IH. exact IH.
  - cbn [concat] in *. specialize (IH nss' (pre ++ ns)). rewrite <- app_assoc in IH. apply IH; [|exact F'].
    rewrite app_length, seq_app in C. apply (f_equal (skipn (length cs))) in C. rewrite skipn_app, skipn_all, Nat.sub_diag in C. cbn [app skipn] in C.
    rewrite skipn_app, seq_length, Nat.sub_diag in C. rewrite skipn_all2 in C by (rewrite seq_length; lia). cbn [app skipn] in C.
    rewrite app_length, <- L. exact C.
Qed.
(** every region gets its elements *)
Definition by_region (rc : list (list nat)) (d cnt : list nat) : Prop := Forall2 (fun cs n => sum (map (at_core d) cs) = n) rc cnt.
Lemma by_region_sum SIZE rc d cnt : concat rc = seq 0 SIZE -> length d = SIZE -> by_region rc d cnt -> sum d = sum cnt.
Proof.
  intros C L H. assert (E : sum cnt = sum (map (at_core d) (concat rc))).
  { clear C L. induction H as [|cs n rc cnt E H IH]; [reflexivity|]. cbn [concat]. rewrite map_app, sum_app, sum_cons. lia. }
  rewrite E, C, <- L. f_equal. clear. unfold at_core. induction d as [|n d IH]; [reflexivity|]. cbn [length seq map]. f_equal.
  rewrite <- seq_shift, map_map. exact IH.
Qed.
Lemma F2_impl {A B} (P Q : A -> B -> Prop) l m : (forall a b, In a l -> P a b -> Q a b) -> Forall2 P l m -> Forall2 Q l m.
Proof. intros H F. induction F; constructor; auto. - apply H; [now left|assumption]. - apply IHF. intros a b Ha. apply H. now right. Qed.
Lemma F2_concat_length (l m : list (list nat)) : Forall2 (fun cs ns => length cs = length ns) l m -> length (concat l) = length (concat m).
Proof. intros F. induction F; [reflexivity|]. cbn [concat]. rewrite !app_length. congruence. Qed.
Lemma first_ok SIZE cnt : 1 <= length cnt <= SIZE ->
  by_region (region_cores SIZE (length cnt)) (swv0_first SIZE cnt) cnt /\ length (swv0_first SIZE cnt) = SIZE.
Proof.
  intros H. destruct (region_cores_concat SIZE (length cnt) H) as (C & L). unfold swv0_first. cbv zeta.
  set (rc := region_cores SIZE (length cnt)) in *. set (b := (length cnt =? 1) || (SIZE mod length cnt =? 0)).
  assert (PC : forall cs, In cs rc -> 1 <= length cs) by (intros cs; apply region_cores_pos; exact H).
  clearbody rc b.
  assert (F : Forall2 (fun cs ns => length cs = length ns) rc (map (fun cc => let e := evenly (snd cc) (length (fst cc)) in if b then e else rev e) (combine rc cnt))).
  { clear - L. revert cnt L. induction rc as [|cs rc IH]; intros [|n cnt] L; try discriminate; constructor.
    - cbn [fst snd]. destruct b; rewrite ?rev_length, evenly_length; reflexivity.
    - apply IH. cbn in L. lia. }
  assert (S1 := split_by rc _ [] ltac:(cbn [length]; rewrite C, seq_length; reflexivity) F). cbn [app] in S1. split.
  - match type of S1 with Forall2 (fun cs ns => map (at_core ?D) cs = ns) _ _ => set (dd := D) in * end. clearbody dd. unfold by_region.
    clear F C H. revert cnt L S1. induction rc as [|cs rc IH]; intros [|n cnt] L S1; try discriminate; constructor.
    + cbn [combine map] in S1. inversion S1 as [|? ? ? ? Q1 Q2]; subst. rewrite Q1. cbn [fst snd]. destruct b; rewrite ?sum_rev; apply evenly_sum; apply PC; now left.
    + apply IH; [|cbn in L; lia|]. { intros x Hx. apply PC. now right. } cbn [combine map] in S1. inversion S1; subst. assumption.
  - transitivity (length (concat rc)); [|rewrite C, seq_length; reflexivity]. symmetry. exact (F2_concat_length _ _ F).
Qed.

(** * giving elements away *)
Lemma sum_map_update cs d c v : NoDup cs -> In c cs -> c < length d ->
  sum (map (at_core (update d c v)) cs) + at_core d c = sum (map (at_core d) cs) + v.
Proof.
  intros ND. induction ND as [|x cs Hx ND IH]; intros Hc Hl; [contradiction|]. cbn [map]. rewrite !sum_cons. destruct Hc as [<-|Hc].
  - unfold at_core at 1. rewrite nth_update_eq by exact Hl.
    replace (map (at_core (update d x v)) cs) with (map (at_core d) cs); [lia|]. apply map_ext_in. intros y Hy. unfold at_core. rewrite nth_update_neq; [reflexivity|].
    intros ->. contradiction.
  - specialize (IH Hc Hl). unfold at_core at 1. rewrite nth_update_neq by (intros ->; contradiction). unfold at_core in *. lia.
Qed.
Lemma map_update_other cs d c v : ~ In c cs -> map (at_core (update d c v)) cs = map (at_core d) cs.
Proof. intros H. apply map_ext_in. intros y Hy. unfold at_core. apply nth_update_neq. intros ->. contradiction. Qed.
Lemma add_fold_length ws d : length (fold_left add_at ws d) = length d.
Proof. revert d. induction ws as [|w ws IH]; intros d; cbn; [reflexivity|]. rewrite IH. unfold add_at. apply length_update. Qed.
Lemma add_fold_other ws d c : ~ In c (map fst ws) -> at_core (fold_left add_at ws d) c = at_core d c.
Proof.
  revert d. induction ws as [|w ws IH]; intros d H; cbn [fold_left map] in *; [reflexivity|]. rewrite IH by (intros G; apply H; now right).
  unfold add_at, at_core. apply nth_update_neq. intros E. apply H. left. congruence.
Qed.
Lemma add_fold_sum cs ws d : NoDup cs -> (forall c, In c cs -> c < length d) -> (forall c, In c (map fst ws) -> In c cs) ->
  sum (map (at_core (fold_left add_at ws d)) cs) = sum (map (at_core d) cs) + sum (map snd ws).
Proof.
  intros ND. revert d. induction ws as [|w ws IH]; intros d B H; cbn [fold_left map].
  - unfold sum at 3. cbn. lia.
  - rewrite IH.
    + rewrite sum_cons. unfold add_at. assert (Q := sum_map_update cs d (fst w) (at_core d (fst w) + snd w) ND (H _ (or_introl eq_refl)) (B _ (H _ (or_introl eq_refl)))). lia.
    + intros c Hc. unfold add_at. rewrite length_update. apply B. exact Hc.
    + intros c Hc. apply H. now right.
Qed.
Lemma give_ok f who slaves cs d : (forall n, f n <= n) -> NoDup cs -> (forall c, In c cs -> c < length d) -> In who cs ->
  (forall c, In c slaves -> In c cs) -> ~ In who slaves -> 1 <= length slaves ->
  length (give f who slaves d) = length d /\ sum (map (at_core (give f who slaves d)) cs) = sum (map (at_core d) cs) /\
  (forall cs', (forall c, In c cs' -> ~ In c cs) -> map (at_core (give f who slaves d)) cs' = map (at_core d) cs').
Proof.
  intros Hf ND B Hw Hs Hns L. unfold give. destruct (at_core d who <=? 2) eqn:E2; [auto|]. apply Nat.leb_gt in E2. cbv zeta.
  set (k := if at_core d who =? 3 then 2 else f (at_core d who)).
  assert (Hk : k <= at_core d who) by (unfold k; destruct (at_core d who =? 3); [lia|apply Hf]).
  assert (MF : map fst (combine slaves (evenly (at_core d who - k) (length slaves))) = slaves).
  { clear. generalize (evenly_length (at_core d who - k) (length slaves)). generalize (evenly (at_core d who - k) (length slaves)).
    induction slaves as [|s sl IH]; intros [|e es] H; try discriminate; [reflexivity|]. cbn. f_equal. apply IH. cbn in H. lia. }
  assert (MS : map snd (combine slaves (evenly (at_core d who - k) (length slaves))) = evenly (at_core d who - k) (length slaves)).
  { clear. generalize (evenly_length (at_core d who - k) (length slaves)). generalize (evenly (at_core d who - k) (length slaves)).
    induction slaves as [|s sl IH]; intros [|e es] H; try discriminate; [reflexivity|]. cbn. f_equal. apply IH. cbn in H. lia. }
  set (ws := combine slaves (evenly (at_core d who - k) (length slaves))) in *.
  split; [|split].
  - rewrite length_update. apply add_fold_length.
  - assert (Q := sum_map_update cs (fold_left add_at ws d) who k ND Hw ltac:(rewrite add_fold_length; apply B; exact Hw)).
    rewrite add_fold_other in Q by (rewrite MF; exact Hns).
    rewrite add_fold_sum in Q; [|exact ND|exact B|rewrite MF; exact Hs]. rewrite MS, evenly_sum in Q by exact L. lia.
  - intros cs' H. rewrite map_update_other by (intros G; exact (H _ G Hw)). apply map_ext_in. intros c Hc. apply add_fold_other. rewrite MF.
    intros G. exact (H _ Hc (Hs _ G)).
Qed.
Lemma NoDup_concat_same {A} (ls : list (list A)) a b x : NoDup (concat ls) -> In a ls -> In b ls -> In x a -> In x b -> a = b.
Proof.
  induction ls as [|l ls IH]; intros ND Ha Hb Xa Xb; [contradiction|]. cbn [concat] in ND.
  assert (D : forall y, In y l -> In y (concat ls) -> False).
  { clear - ND. induction l as [|z l IH]; intros y Hy Hc; [contradiction|]. cbn in ND. inversion ND; subst. destruct Hy as [<-|Hy]; [|eauto].
    apply H1. apply in_or_app. now right. }
  destruct Ha as [<-|Ha], Hb as [<-|Hb]; auto.
  - exfalso. apply (D x Xa). apply in_concat. eauto.
  - exfalso. apply (D x Xb). apply in_concat. eauto.
  - apply IH; auto. clear - ND. induction l as [|z l IH]; [exact ND|]. apply IH. cbn in ND. inversion ND; assumption.
Qed.
Lemma NoDup_concat_in {A} (ls : list (list A)) a : NoDup (concat ls) -> In a ls -> NoDup a.
Proof.
  induction ls as [|l ls IH]; intros ND Ha; [contradiction|]. cbn [concat] in ND. destruct Ha as [<-|Ha].
  - clear - ND. induction l as [|z l IH]; [constructor|]. cbn in ND. inversion ND; subst. constructor; [|apply IH; assumption]. intros G. apply H1. apply in_or_app. now left.
  - apply IH; [|exact Ha]. clear - ND. induction l as [|z l IH]; [exact ND|]. apply IH. cbn in ND. inversion ND; assumption.
Qed.
Section Gives.
  Context (SIZE : nat) (rc : list (list nat)) (cnt : list nat) (C : concat rc = seq 0 SIZE).
  Definition good (d : list nat) : Prop := length d = SIZE /\ by_region rc d cnt.
  Lemma rc_NoDup : NoDup (concat rc). Proof. rewrite C. apply seq_NoDup. Qed.
  Lemma rc_lt cs c : In cs rc -> In c cs -> c < SIZE.
  Proof. intros H1 H2. assert (In c (concat rc)) by (apply in_concat; eauto). rewrite C in H. apply in_seq in H. lia. Qed.
  Lemma gives_ok f who slaves cs d : (forall n, f n <= n) -> In cs rc -> In who cs ->
    (forall c, In c slaves -> In c cs) -> ~ In who slaves -> 1 <= length slaves -> good d -> good (give f who slaves d).
  Proof.
    intros Hf Hcs Hw Hs Hns L (Len & BR).
    destruct (give_ok f who slaves cs d Hf (NoDup_concat_in rc cs rc_NoDup Hcs) ltac:(intros c Hc; rewrite Len; exact (rc_lt cs c Hcs Hc)) Hw Hs Hns L) as (E1 & E2 & E3).
    split; [congruence|]. unfold by_region in *. apply F2_impl with (P := fun cs n => sum (map (at_core d) cs) = n); [|exact BR]. intros cs' n Hc' E.
    destruct (list_eq_dec Nat.eq_dec cs' cs) as [->|N]; [congruence|]. rewrite E3; [exact E|]. intros c Hc Hc2. apply N.
    exact (NoDup_concat_same rc cs' cs c rc_NoDup Hc' Hcs Hc Hc2).
  Qed.
  Lemma fold_good (F : list nat -> list nat -> list nat) d : (forall cs d, In cs rc -> good d -> good (F d cs)) -> good d -> good (fold_left F rc d).
  Proof.
    intros H. assert (Q : forall l, incl l rc -> forall d, good d -> good (fold_left F l d)).
    { induction l as [|cs l IH]; intros Hl d0 G; cbn [fold_left]; [exact G|]. apply IH; [intros x Hx; apply Hl; now right|]. apply H; [apply Hl; now left|exact G]. }
    apply Q. apply incl_refl.
  Qed.
  Lemma existsb_in x l : existsb (Nat.eqb x) l = true -> In x l.
  Proof. intros H. apply existsb_exists in H. destruct H as (y & Hy & E). apply Nat.eqb_eq in E. subst. exact Hy. Qed.
  Lemma filter_nonempty (f : nat -> bool) l : (exists x, In x l /\ f x = true) -> 1 <= length (filter f l).
  Proof. intros (x & Hx & E). assert (In x (filter f l)) by (apply filter_In; auto). destruct (filter f l); [contradiction|cbn; lia]. Qed.
  Lemma master_good mlf d : (forall n, mlf n <= n) -> good d -> good (master_gives mlf rc d).
  Proof.
    intros Hf. apply fold_good. intros cs d0 Hcs G. destruct (existsb (Nat.eqb master) cs) eqn:E; [|exact G]. destruct (length cs =? 1) eqn:E1; [exact G|].
    apply existsb_in in E. apply Nat.eqb_neq in E1. apply (gives_ok mlf master _ cs); auto.
    - intros c Hc. apply filter_In in Hc. apply Hc.
    - intros H. apply filter_In in H. destruct H as (_ & H). rewrite Nat.eqb_refl in H. discriminate.
    - apply filter_nonempty. assert (ND := NoDup_concat_in rc cs rc_NoDup Hcs). destruct cs as [|x [|y l]]; [contradiction|cbn in E1; lia|].
      inversion ND as [|? ? N1 N2]; subst. destruct (Nat.eq_dec x master) as [->|Nx].
      + exists y. split; [right; now left|]. apply negb_true_iff, Nat.eqb_neq. intros ->. apply N1. now left.
      + exists x. split; [now left|]. apply negb_true_iff, Nat.eqb_neq. exact Nx.
  Qed.
  Lemma secretary_good slf sec d : (forall n, slf n <= n) -> good d -> good (secretary_gives slf sec rc d).
  Proof.
    intros Hf. apply fold_good. intros cs d0 Hcs G. destruct (existsb (Nat.eqb sec) cs) eqn:E; [|exact G]. destruct (length cs =? 1) eqn:E1; [exact G|].
    destruct ((length cs =? 2) && existsb (Nat.eqb master) cs) eqn:E2; [exact G|].
    apply existsb_in in E. apply Nat.eqb_neq in E1. apply (gives_ok slf sec _ cs); auto.
    - intros c Hc. apply filter_In in Hc. apply Hc.
    - intros H. apply filter_In in H. destruct H as (_ & H). rewrite Nat.eqb_refl, andb_false_r in H. discriminate.
    - apply filter_nonempty. assert (ND := NoDup_concat_in rc cs rc_NoDup Hcs).
      assert (X : exists x, In x cs /\ x <> master /\ x <> sec).
      { destruct cs as [|x [|y [|z l]]]; [contradiction|cbn in E1; lia| |].
        - rewrite andb_false_iff in E2. destruct E2 as [E2|E2]; [discriminate|].
          assert (NM : ~ In master [x; y]). { intros H. assert (T : existsb (Nat.eqb master) [x; y] = true) by (apply existsb_exists; exists master; split; [exact H|apply Nat.eqb_refl]). congruence. }
          inversion ND as [|? ? N1 _]; subst. destruct (Nat.eq_dec x sec) as [->|Nx].
          + exists y. split; [right; now left|]. split; [intros ->; apply NM; right; now left|]. intros ->. apply N1. now left.
          + exists x. split; [now left|]. split; [intros ->; apply NM; now left|exact Nx].
        - inversion ND as [|? ? N1 ND2]; subst. inversion ND2 as [|? ? N2 _]; subst.
          assert (x <> y) by (intros ->; apply N1; now left). assert (x <> z) by (intros ->; apply N1; right; now left). assert (y <> z) by (intros ->; apply N2; now left).
          destruct (Nat.eq_dec x master), (Nat.eq_dec x sec), (Nat.eq_dec y master), (Nat.eq_dec y sec);
            try (exists x; split; [now left|]; split; congruence); try (exists y; split; [right; now left|]; split; congruence);
            (exists z; split; [right; right; now left|]; split; congruence). }
      destruct X as (x & Hx & N1 & N2). exists x. split; [exact Hx|]. rewrite (proj2 (Nat.eqb_neq _ _) N1), (proj2 (Nat.eqb_neq _ _) N2). reflexivity.
  Qed.
End Gives.

(** * the methods *)
Section Methods.
  Context (mlf slf : nat -> nat) (Hm : forall n, mlf n <= n) (Hs : forall n, slf n <= n).
  Lemma default_ok SIZE N : 1 <= SIZE -> length (dis_default mlf slf SIZE N) = SIZE /\ sum (dis_default mlf slf SIZE N) = N.
  Proof.
    intros H. unfold dis_default. destruct (SIZE =? 1) eqn:E1; [apply Nat.eqb_eq in E1; subst; cbn; lia|].
    destruct (SIZE =? 2) eqn:E2. { apply Nat.eqb_eq in E2. subst. cbn [length]. split; [reflexivity|]. unfold sum; cbn [fold_right]. assert (N / 2 <= N) by (apply Nat.div_le_upper_bound; lia). lia. }
    apply Nat.eqb_neq in E1, E2. cbv zeta.
    set (m := if N / SIZE =? 1 then N / SIZE else if (N / SIZE <=? 5) && (2 <? N / SIZE) then 2 else mlf (N / SIZE)).
    assert (M0 : N / SIZE <= N) by (apply Nat.div_le_upper_bound; nia).
    assert (M : m <= N).
    { unfold m. destruct (N / SIZE =? 1); [lia|]. destruct ((N / SIZE <=? 5) && (2 <? N / SIZE)) eqn:E; [|specialize (Hm (N / SIZE)); lia].
      apply andb_prop in E. destruct E as (_ & E). apply Nat.ltb_lt in E. lia. }
    set (s := if 7 <=? (N - m) / (SIZE - 1) then slf ((N - m) / (SIZE - 1)) else (N - m) / (SIZE - 1)).
    assert (S0 : (N - m) / (SIZE - 1) <= N - m) by (apply Nat.div_le_upper_bound; nia).
    assert (S1 : s <= N - m) by (unfold s; destruct (7 <=? (N - m) / (SIZE - 1)); [specialize (Hs ((N - m) / (SIZE - 1))); lia|lia]).
    cbn [length]. rewrite !sum_cons, evenly_length, evenly_sum by lia. lia.
  Qed.
  Lemma chaotic_ok rnd SIZE N d : 1 <= SIZE -> dis_chaotic rnd SIZE N = Some d -> length d = SIZE /\ sum d = N.
  Proof.
    intros H. unfold dis_chaotic. cbv zeta. destruct (sum (map rnd (seq 0 (SIZE - 1))) <=? N) eqn:E; [|discriminate]. apply Nat.leb_le in E.
    intros [= <-]. rewrite app_length, map_length, seq_length, sum_app. cbn [length]. unfold sum at 2. cbn [fold_right]. lia.
  Qed.
  Lemma sum_nth_seq cnt : sum (map (fun r => nth r cnt 0) (seq 0 (length cnt))) = sum cnt.
  Proof. f_equal. induction cnt as [|n c IH]; [reflexivity|]. cbn [length seq map]. f_equal. rewrite <- seq_shift, map_map. exact IH. Qed.
  Lemma sum_groups (f : nat -> nat) ls : sum (map (fun l => sum (map f l)) ls) = sum (map f (concat ls)).
  Proof. induction ls as [|l ls IH]; [reflexivity|]. cbn [map concat]. rewrite map_app, sum_app, sum_cons, IH. reflexivity. Qed.
  Lemma few_ok equal SIZE cnt d : dis_few equal SIZE cnt = Some d -> length d = SIZE /\ sum d = sum cnt.
  Proof.
    unfold dis_few. cbv zeta. destruct ((1 <? SIZE) && (SIZE <=? length cnt) && equal) eqn:E; [|discriminate].
    apply andb_prop in E. destruct E as (E & _). apply andb_prop in E. destruct E as (E1 & E2). apply Nat.ltb_lt in E1. apply Nat.leb_le in E2.
    intros [= <-]. destruct (length cnt mod SIZE =? 0) eqn:E0.
    - rewrite map_length, seq_length. split; [reflexivity|]. apply Nat.eqb_eq in E0. assert (D := Nat.div_mod_eq (length cnt) SIZE).
      set (k := length cnt / SIZE) in *.
      transitivity (sum (map (fun l => sum (map (fun r => nth r cnt 0) l)) (map (fun i => map (fun j => j + k * i) (seq 0 k)) (seq 0 SIZE)))).
      + f_equal. rewrite map_map. apply map_ext. intros i. rewrite map_map. f_equal. apply map_ext. intros j. f_equal. lia.
      + rewrite sum_groups, blocks_seq. rewrite Nat.mul_0_r. replace (k * SIZE) with (length cnt) by lia. apply sum_nth_seq.
    - rewrite map_length, pop_groups_length, rev_length, evenly_length. split; [reflexivity|].
      rewrite (sum_groups (fun r => nth r cnt 0)), pop_groups_concat, sum_rev, evenly_sum by lia. rewrite firstn_all2 by (rewrite seq_length; lia). apply sum_nth_seq.
  Qed.
  Lemma swv0_ok equal SIZE cnt d : 1 <= length cnt -> dis_swv0 mlf slf equal SIZE cnt = Some d ->
    length d = SIZE /\ by_region (region_cores SIZE (length cnt)) d cnt /\ sum d = sum cnt.
  Proof.
    intros H. unfold dis_swv0. cbv zeta. destruct ((1 <? SIZE) && (length cnt <=? SIZE) && equal) eqn:E; [|discriminate].
    apply andb_prop in E. destruct E as (E & _). apply andb_prop in E. destruct E as (E1 & E2). apply Nat.ltb_lt in E1. apply Nat.leb_le in E2.
    intros [= <-]. destruct (region_cores_concat SIZE (length cnt) ltac:(lia)) as (C & L). destruct (first_ok SIZE cnt ltac:(lia)) as (B & LB).
    assert (G : good SIZE (region_cores SIZE (length cnt)) cnt (secretary_gives slf (secretary SIZE) (region_cores SIZE (length cnt)) (master_gives mlf (region_cores SIZE (length cnt)) (swv0_first SIZE cnt)))).
    { apply secretary_good; auto. apply master_good; auto. split; assumption. }
    destruct G as (G1 & G2). split; [exact G1|]. split; [exact G2|]. exact (by_region_sum SIZE _ _ _ C G1 G2).
  Qed.
  Lemma distribution_ok m equal rnd SIZE cnt d : 1 <= SIZE -> 1 <= length cnt -> distribution mlf slf m equal rnd SIZE cnt = Some d ->
    partition SIZE (sum cnt) (element_ranges 0 d).
  Proof.
    intros H1 H2 E. destruct m; cbn [distribution] in E.
    - injection E as <-. destruct (default_ok SIZE (sum cnt) H1). apply ranges_ok; assumption.
    - apply chaotic_ok in E; [|exact H1]. apply ranges_ok; apply E.
    - apply few_ok in E. apply ranges_ok; apply E.
    - apply swv0_ok in E; [|exact H2]. apply ranges_ok; apply E.
  Qed.
  Lemma distribution_total m equal rnd SIZE cnt : 1 <= SIZE -> 1 <= length cnt ->
    match m with Default => True | Chaotic => sum (map rnd (seq 0 (SIZE - 1))) <= sum cnt | FewCores => 1 < SIZE <= length cnt /\ equal = true
               | SWV0 => 1 < SIZE /\ length cnt <= SIZE /\ equal = true end ->
    exists d, distribution mlf slf m equal rnd SIZE cnt = Some d.
  Proof.
    intros H1 H2 H. destruct m; cbn [distribution].
    - eauto.
    - unfold dis_chaotic. cbv zeta. rewrite (proj2 (Nat.leb_le _ _) H). eauto.
    - unfold dis_few. cbv zeta. destruct H as ((A & B) & ->). rewrite (proj2 (Nat.ltb_lt _ _) A), (proj2 (Nat.leb_le _ _) B). cbn [andb]. eauto.
    - unfold dis_swv0. cbv zeta. destruct H as (A & B & ->). rewrite (proj2 (Nat.ltb_lt _ _) A), (proj2 (Nat.leb_le _ _) B). cbn [andb]. eauto.
  Qed.
  (** the method chosen automatically never refuses *)
  Lemma auto_ok a equal SIZE nrs m : 1 <= SIZE -> 1 <= nrs -> (nrs = 1 -> equal = true) -> (a = ArgNone \/ a = ArgDebug) -> decide_EDM a equal SIZE nrs = Some m ->
    match m with Default => True | Chaotic => False | FewCores => 1 < SIZE <= nrs /\ equal = true | SWV0 => 1 < SIZE /\ nrs <= SIZE /\ equal = true end.
  Proof.
    intros H1 H2 He [-> | ->]; cbn [decide_EDM]; [|intros [= <-]; exact I].
    destruct equal; cbn [negb]; [|intros [= <-]; exact I]. destruct (SIZE =? 1) eqn:E; [intros [= <-]; exact I|]. apply Nat.eqb_neq in E.
    destruct (Nat.leb_spec SIZE nrs); intros [= <-]; repeat split; lia.
  Qed.
End Methods.

(** * with SWV0 the elements of a core are in one region *)
Lemma firstn_sum_seq (d : list nat) c : sum (firstn c d) = sum (map (at_core d) (seq 0 (Nat.min c (length d)))).
Proof.
  revert c. induction d as [|n d IH]; intros [|c]; try reflexivity. cbn [firstn length]. rewrite <- Nat.succ_min_distr. cbn [seq map].
  rewrite !sum_cons, IH. unfold at_core at 2. cbn [nth]. f_equal. rewrite <- seq_shift, map_map. reflexivity.
Qed.
Lemma region_range rc d : forall cnt c0, concat rc = seq c0 (length d - c0) -> c0 <= length d -> by_region rc d cnt ->
  forall r cs n c, nth_error rc r = Some cs -> nth_error cnt r = Some n -> In c cs ->
  sum (firstn c0 d) + sum (firstn r cnt) <= sum (firstn c d) /\ sum (firstn c d) + at_core d c <= sum (firstn c0 d) + sum (firstn r cnt) + n.
Proof.
  induction rc as [|cs rc IH]; intros cnt c0 C L B r cs' n' c Hr Hn Hc; [destruct r; discriminate|].
  inversion B as [|? n ? cnt' E B']; subst cnt. subst. cbn [concat] in C.
  assert (LC : length cs <= length d - c0) by (apply (f_equal (@length nat)) in C; rewrite app_length, seq_length in C; lia).
  replace (length d - c0) with (length cs + (length d - (c0 + length cs))) in C by lia. rewrite seq_app in C.
  assert (E1 : cs = seq c0 (length cs)).
  { apply (f_equal (firstn (length cs))) in C. rewrite firstn_app, firstn_all, Nat.sub_diag, firstn_O, app_nil_r in C.
    rewrite firstn_app, seq_length, Nat.sub_diag, firstn_O, app_nil_r in C. rewrite firstn_all2 in C by (rewrite seq_length; lia). exact C. }
  assert (E2 : concat rc = seq (c0 + length cs) (length d - (c0 + length cs))).
  { apply (f_equal (skipn (length cs))) in C. rewrite skipn_app, skipn_all, Nat.sub_diag in C. cbn [app skipn] in C.
    rewrite skipn_app, seq_length, Nat.sub_diag in C. rewrite skipn_all2 in C by (rewrite seq_length; lia). exact C. }
  assert (E3 : sum (firstn (c0 + length cs) d) = sum (firstn c0 d) + sum (map (at_core d) cs)).
  { rewrite !firstn_sum_seq, !Nat.min_l by lia. rewrite seq_app, map_app, sum_app, Nat.add_0_l, <- E1. reflexivity. }
  destruct r as [|r]; cbn [nth_error] in Hr, Hn.
  - injection Hr as <-. injection Hn as <-. cbn [firstn]. change (sum []) with 0. rewrite E1 in Hc. apply in_seq in Hc.
    assert (A1 := PreludeProofs.sum_firstn_le d c0 c ltac:(lia)). assert (A2 := PreludeProofs.sum_firstn_le d (S c) (c0 + length cs) ltac:(lia)).
    rewrite sum_firstn_S in A2 by lia. unfold at_core at 1. lia.
  - destruct (IH cnt' (c0 + length cs) E2 ltac:(lia) B' r cs' n' c Hr Hn Hc) as (Q1 & Q2). cbn [firstn]. rewrite sum_cons. lia.
Qed.
Lemma core_in_region SIZE rc d cnt r cs c e l : concat rc = seq 0 SIZE -> length d = SIZE -> by_region rc d cnt ->
  nth_error rc r = Some cs -> In c cs -> nth_error (element_ranges 0 d) c = Some l -> In e l ->
  sum (firstn r cnt) <= e < sum (firstn (S r) cnt).
Proof.
  intros C L B Hr Hc Hl He. assert (F := F2_length _ _ _ B). 
  destruct (nth_error cnt r) as [n|] eqn:En; [|apply nth_error_None in En; assert (r < length rc) by (apply nth_error_Some; congruence); unfold by_region in B; lia].
  destruct (region_range rc d cnt 0 ltac:(rewrite C, L, Nat.sub_0_r; reflexivity) ltac:(lia) B r cs n c Hr En Hc) as (Q1 & Q2).
  apply ranges_nth in Hl. subst l. apply in_seq in He. cbn [firstn] in Q1, Q2. change (sum []) with 0 in *.
  rewrite sum_firstn_S by (apply nth_error_Some; congruence). rewrite (nth_error_nth _ _ 0 En). lia.
Qed.
