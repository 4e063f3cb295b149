(* Dual cochains, and the dual coboundary as the adjoint. *)
From Coq Require Import Reals List Arith ZArith Lia Lra.
From Verif Require Import Prelude AssembleModel RingSum SpaceModel SpaceSpec SpaceProofs SpaceProofs2 SpaceProofs5 SpaceProofs6.
From Verif Require Import TfiModel CtModel CtSpec DiscModel DiscSpec DiscProofs2 DiscProofs3 ReconModel ReconSpec ReconProofs ReconProofs4 CrossProofs CrossProofs2 TrfModel TrfSpec TrfProofs2 AdfModel AdfSpec.
Import ListNotations.
Open Scope R_scope.

(* ---------- matrices ---------- *)
Lemma matvec_times M c n : has_shape M n (length c) -> matvec M c = Some (times M c).
Proof.
  intros (_ & H). unfold matvec. replace (forallb (fun row => (length row =? length c)%nat) M) with true.
  - f_equal. apply map_ext. intros row. apply DiscProofs2.lsum_map2.
  - symmetry. apply forallb_forall. intros row I. apply Nat.eqb_eq. apply H. exact I.
Qed.
Lemma times_len M c : length (times M c) = length M.
Proof. apply map_length. Qed.
Lemma matvec_bad M c n m : has_shape M n m -> (0 < n)%nat -> length c <> m -> matvec M c = None.
Proof.
  intros (L & H) P D. unfold matvec. destruct (forallb (fun row => (length row =? length c)%nat) M) eqn:E; [|reflexivity].
  destruct M as [|row M]; [cbn in L; lia|]. cbn [forallb] in E. apply andb_prop in E as (E & _). apply Nat.eqb_eq in E.
  exfalso. apply D. rewrite <- E. apply H. left. reflexivity.
Qed.

(* ---------- cochains ---------- *)
Lemma lookup_map_pair {A} (f : nat -> A) els i : lookup Nat.eqb i (map (fun j => (j, f j)) els) = if in_dec Nat.eq_dec i els then Some (f i) else None.
Proof.
  induction els as [|j els IH]; [reflexivity|]. cbn [map lookup]. destruct (Nat.eqb_spec i j) as [->|D].
  - destruct (in_dec Nat.eq_dec j (j :: els)) as [_|N]; [reflexivity|]. exfalso. apply N. left. reflexivity.
  - rewrite IH. destruct (in_dec Nat.eq_dec i els) as [I|N]; destruct (in_dec Nat.eq_dec i (j :: els)) as [I'|N']; try reflexivity.
    + exfalso. apply N'. right. exact I.
    + exfalso. destruct I' as [->|I']; [apply D; reflexivity|]. apply N. exact I'.
Qed.
Lemma all_some_map {A B} (f : A -> option B) (g : A -> B) l : (forall a, In a l -> f a = Some (g a)) -> all_some (map f l) = Some (map g l).
Proof.
  induction l as [|a l IH]; intros H; [reflexivity|]. cbn [map all_some]. rewrite (H a) by (left; reflexivity). rewrite IH; [reflexivity|]. intros b I. apply H. right. exact I.
Qed.
Lemma all_some_in {A B} (f : A -> option B) l r : all_some (map f l) = Some r -> forall a, In a l -> exists b, f a = Some b /\ In b r.
Proof.
  revert r. induction l as [|a l IH]; intros r H b I; [destruct I|]. cbn [map all_some] in H. destruct (f a) as [x|] eqn:E; [|discriminate].
  destruct (all_some (map f l)) as [r'|] eqn:E'; [|discriminate]. injection H as <-. destruct I as [<-|I]; [exists x; split; [exact E|left; reflexivity]|].
  destruct (IH r' eq_refl b I) as (y & Y & Y'). exists y. split; [exact Y|right; exact Y'].
Qed.
Section Dual.
Context (els : list nat) (n : nat) (M iM : nat -> matrix).
Hypothesis INV : forall i, In i els -> inverse_of (M i) (iM i) n.
Hypothesis POS : (0 < n)%nat.
Definition val (l : ldict) (i : nat) : list R := match lookup Nat.eqb i l with Some c => c | None => [] end.
Lemma set_form l : covers els n l -> dual_set els n iM l = Some (Some (map (fun i => (i, times (iM i) (val l i))) els)).
Proof.
  intros (L & H). unfold dual_set. rewrite L, Nat.eqb_refl. rewrite (all_some_map _ (fun i => (i, times (iM i) (val l i)))).
  - unfold prime_set. replace (forallb _ _) with true; [reflexivity|]. symmetry. apply forallb_forall. intros kv I. apply in_map_iff in I as (i & <- & I).
    cbn [snd]. rewrite times_len. apply Nat.eqb_eq. apply (INV i I).
  - intros i I. unfold val. destruct (H i I) as (c & -> & Lc). rewrite (matvec_times (iM i) c n); [reflexivity|]. rewrite Lc. apply (INV i I).
Qed.
Theorem dual_set_iff l : (exists st, dual_set els n iM l = Some st) <-> covers els n l.
Proof.
  split; [|intros H; rewrite (set_form l H); eexists; reflexivity]. intros (st & H). unfold dual_set in H.
  destruct (Nat.eqb_spec (length l) (length els)) as [L|]; [|discriminate]. split; [exact L|]. intros i I.
  destruct (all_some _) as [p|] eqn:E; [|discriminate]. destruct (all_some_in _ els p E i I) as (b & Hb & _).
  destruct (lookup Nat.eqb i l) as [c|]; [|discriminate]. exists c. split; [reflexivity|]. destruct (INV i I) as (_ & S & _).
  destruct (Nat.eq_dec (length c) n) as [|D]; [assumption|]. rewrite (matvec_bad (iM i) c n n S POS D) in Hb. discriminate.
Qed.
Theorem set_get l st : dual_set els n iM l = Some st -> dual_keys st = Some els /\ forall i, In i els -> dual_get M st i = lookup Nat.eqb i l.
Proof.
  intros H. assert (C : covers els n l) by (apply dual_set_iff; exists st; exact H). rewrite (set_form l C) in H. injection H as <-. split.
  - unfold dual_keys. cbn [option_map]. rewrite map_map. cbn [fst]. rewrite map_id. reflexivity.
  - intros i I. unfold dual_get. rewrite (lookup_map_pair (fun i => times (iM i) (val l i))). destruct (in_dec Nat.eq_dec i els) as [_|N]; [|contradiction].
    destruct (proj2 C i I) as (c & Hc & Lc). unfold val. rewrite Hc. destruct (INV i I) as (SM & SI & V).
    rewrite (matvec_times (M i) _ n).
    + f_equal. apply V. exact Lc.
    + rewrite times_len, (proj1 SI). exact SM.
Qed.
(* reading the dual and setting it back leaves the prime as it is *)
Theorem get_set d : NoDup els -> covers els n d -> exists l, map fst l = els /\ (forall i, In i els -> dual_get M (Some d) i = lookup Nat.eqb i l) /\
  exists d', dual_set els n iM l = Some (Some d') /\ forall i, In i els -> lookup Nat.eqb i d' = lookup Nat.eqb i d.
Proof.
  intros ND (L & H). set (l := map (fun i => (i, times (M i) (val d i))) els).
  assert (LK : forall i, In i els -> lookup Nat.eqb i l = Some (times (M i) (val d i))).
  { intros i I. unfold l. rewrite (lookup_map_pair (fun i => times (M i) (val d i))). destruct (in_dec Nat.eq_dec i els); [reflexivity|contradiction]. }
  exists l. split; [unfold l; rewrite map_map; apply map_id|]. split.
  - intros i I. rewrite (LK i I). unfold dual_get, val. destruct (H i I) as (c & -> & Lc). apply (matvec_times _ _ n). rewrite Lc. apply (INV i I).
  - assert (C : covers els n l).
    { split; [unfold l; apply map_length|]. intros i I. eexists. split; [apply LK; exact I|]. rewrite times_len. apply (INV i I). }
    eexists. split; [apply set_form; exact C|]. intros i I. rewrite (lookup_map_pair (fun i => times (iM i) (val l i))).
    destruct (in_dec Nat.eq_dec i els); [|contradiction]. unfold val at 1. rewrite (LK i I). unfold val. destruct (H i I) as (c & -> & Lc).
    f_equal. apply (INV i I). exact Lc.
Qed.
(* from a locally full vector *)
Theorem set_full_ok gm v : map fst gm = els -> NoDup els -> (forall e, In e gm -> length (snd e) = n /\ Forall (fun k => (k < length v)%nat) (snd e)) ->
  exists st, dual_set_full els n iM gm v = Some st /\ forall i idx, In (i, idx) gm -> dual_get M st i = Some (map (fun k => nth k v 0) idx).
Proof.
  intros Hg ND H. unfold dual_set_full.
  rewrite (all_some_map _ (fun e => (fst e, map (fun k => nth k v 0) (snd e)))).
  2:{ intros e I. unfold pick. rewrite (all_some_map _ (fun k => nth k v 0)); [reflexivity|]. intros k K. destruct (H e I) as (_ & F). rewrite Forall_forall in F. apply nth_error_nth'. apply F. exact K. }
  set (l := map _ gm).
  assert (LK : forall i idx, In (i, idx) gm -> lookup Nat.eqb i l = Some (map (fun k => nth k v 0) idx)).
  { rewrite <- Hg in ND. unfold l. clear - ND. induction gm as [|(j, x) gm IH]; intros i idx I; [destruct I|]. cbn [map fst snd lookup]. inversion ND as [|? ? N ND']; subst.
    destruct I as [E|I]; [injection E as <- <-; rewrite Nat.eqb_refl; reflexivity|]. destruct (Nat.eqb_spec i j) as [->|].
    - exfalso. apply N. apply in_map_iff. exists (j, idx). split; [reflexivity|exact I].
    - apply IH; assumption. }
  assert (C : covers els n l).
  { split; [unfold l; rewrite map_length, <- Hg; symmetry; apply map_length|]. intros i I. rewrite <- Hg in I. apply in_map_iff in I as ((j, idx) & <- & I). cbn [fst].
    eexists. split; [apply LK; exact I|]. rewrite map_length. apply (H _ I). }
  destruct (proj2 (dual_set_iff l) C) as (st & Hs). exists st. split; [exact Hs|]. intros i idx I.
  rewrite (proj2 (set_get l st Hs) i); [apply LK; exact I|]. rewrite <- Hg. apply in_map_iff. exists (i, idx). split; [reflexivity|exact I].
Qed.
End Dual.

(* ---------- the adjoint ---------- *)
Lemma dense_shape n m E : has_shape (dense_T n m E) m n.
Proof. split; [apply len_map_seq|]. intros row I. apply in_map_iff in I as (c & <- & _). apply len_map_seq. Qed.
Lemma negative_shape A n m : has_shape A n m -> has_shape (negative A) n m.
Proof. intros (L & H). split; [unfold negative; rewrite map_length; exact L|]. intros row I. apply in_map_iff in I as (r & <- & I). rewrite map_length. apply H. exact I. Qed.
Lemma pairing_sq a b : pairing a b = sq (length b) (fun i => nth i a 0 * nth i b 0).
Proof. apply dot_sq. Qed.
Lemma times_dense n m E d : length d = n -> times (dense_T n m E) d = map (fun c => sq n (fun r => IZR (E r c) * nth r d 0)) (seq 0 m).
Proof. intros L. unfold dense_T. rewrite times_seq, L. apply map_ext. intros c. apply sq_ext. intros r Hr. rewrite nth_map_seq by exact Hr. reflexivity. Qed.
Lemma times_negative A d : times (negative A) d = map Ropp (times A d).
Proof.
  unfold times, negative. rewrite !map_map. apply map_ext. intros row. clear. revert d. induction row as [|x row IH]; intros [|y d]; cbn [map combine]; try (unfold rsum; cbn; ring).
  rewrite !DiscProofs2.rsum_cons, IH. cbn [fst snd]. ring.
Qed.
Lemma pairing_opp v r : pairing v (map Ropp r) = - pairing v r.
Proof. rewrite !pairing_sq, map_length. rewrite <- (Rmult_1_l (sq _ (fun i => nth i v 0 * nth i r 0))), Ropp_mult_distr_l, sq_mult_l. apply sq_ext. intros i _. replace (nth i (map Ropp r) 0) with (- nth i r 0); [ring|]. rewrite <- (map_nth Ropp r 0), Ropp_0. reflexivity. Qed.
(* <v, E^T d> = <E v, d> *)
Lemma adjoint n m (E E' : nat -> nat -> Z) v u d : length v = m -> length u = n -> length d = n ->
  (forall r c, (r < n)%nat -> (c < m)%nat -> E r c = E' r c) -> mat_times E' v u -> pairing v (times (dense_T n m E) d) = pairing u d.
Proof.
  intros Lv Lu Ld EQ H. rewrite !pairing_sq, Ld, times_len, (proj1 (dense_shape n m E)), times_dense by exact Ld.
  transitivity (sq m (fun c => sq n (fun r => nth c v 0 * (IZR (E r c) * nth r d 0)))).
  - apply sq_ext. intros c Hc. rewrite nth_map_seq by exact Hc. apply sq_mult_l.
  - rewrite sq_swap. apply sq_ext. intros r Hr. rewrite (H r) by (rewrite Lu; exact Hr). unfold apply_mat.
    rewrite (bsum_rsum (seq 0 (length v)) (fun c => @zmul RRing (E' r c) (nth c v 0))), Lv. fold (sq m (fun c => @zmul RRing (E' r c) (nth c v 0))). rewrite sq_mult_r.
    apply sq_ext. intros c Hc. rewrite zmul_R, (EQ r c Hr Hc). ring.
Qed.
Lemma adjoint_neg n m (E E' : nat -> nat -> Z) v u d : length v = m -> length u = n -> length d = n ->
  (forall r c, (r < n)%nat -> (c < m)%nat -> E r c = E' r c) -> mat_times E' v u -> pairing v (times (negative (dense_T n m E)) d) = - pairing u d.
Proof. intros Lv Lu Ld EQ H. rewrite times_negative, pairing_opp. f_equal. apply (adjoint n m E E'); assumption. Qed.
Lemma map2_len {A B C} (f : A -> B -> C) l m : length l = length m -> length (map2 f l m) = length l.
Proof. revert m. induction l as [|x l IH]; intros [|y m] H; try discriminate; [reflexivity|]. cbn [map2 length]. rewrite IH; [reflexivity|]. cbn in H. lia. Qed.
Lemma map2_nth_plus l m i : length l = length m -> nth i (map2 Rplus l m) 0 = nth i l 0 + nth i m 0.
Proof. revert m i. induction l as [|x l IH]; intros [|y m] i H; try discriminate; [destruct i; cbn; ring|]. destruct i; [reflexivity|]. cbn [map2 nth]. apply IH. cbn in H. lia. Qed.
Lemma pairing_plus v a b : length a = length b -> pairing v (map2 Rplus a b) = pairing v a + pairing v b.
Proof.
  intros L. rewrite !pairing_sq, map2_len, <- L by exact L. unfold sq. rewrite <- rsum_plus. apply rsum_ext. intros i _. rewrite map2_nth_plus by exact L. ring.
Qed.
Lemma realises_same E E' cd cs od os : realises E cd cs od os -> realises E' cd cs od os ->
  forall r c, (r < length cd)%nat -> (c < length cs)%nat -> E r c = E' r c.
Proof.
  intros H H' r c Hr Hc. destruct (nth_error cd r) as [s|] eqn:S; [|apply nth_error_None in S; lia]. destruct (nth_error cs c) as [t|] eqn:T; [|apply nth_error_None in T; lia].
  rewrite (H r c s t S T). symmetry. apply H'; assumption.
Qed.
Lemma step_ok E T d t n m : has_shape E n (length d) -> has_shape T n (length t) -> m = n -> dual_step E T d t = Some (map2 Rplus (times E d) (times T t)) /\ length (map2 Rplus (times E d) (times T t)) = m.
Proof.
  intros HE HT ->. unfold dual_step. rewrite (matvec_times E d n HE), (matvec_times T t n HT), !times_len, (proj1 HE), (proj1 HT), Nat.eqb_refl.
  split; [reflexivity|]. rewrite map2_len; rewrite !times_len; [apply HE|]. rewrite (proj1 HE). symmetry. apply HT.
Qed.
Section Step.
Context (px py pz : nat) (Fp : Forall (fun n => (1 <= n)%nat) [px; py; pz]).
Let p := [px; py; pz].
Lemma types_form k : SpaceProofs.types_ok p (form_types k).
Proof. destruct k as [|[|[|k]]]; [apply nodes3_ok|apply edges3_ok|apply faces3_ok|apply volumes3_ok]. Qed.
Lemma E_of k : (k < 3)%nat -> exists E, match k with 0%nat => E10 p | 1%nat => E21 p | _ => E32 p end = Some E /\ realises E (form_cells (S k) p) (form_cells k p) orient3 orient3.
Proof. intros H. destruct k as [|[|[|k]]]; [apply E10_real|apply E21_real|apply E32_real|lia]. Qed.
Lemma T_of k : (k < 3)%nat -> exists T, match k with 0%nat => trace0 outward p | 1%nat => trace1 outward p | _ => trace2 outward p end = Some T /\
  restricts (trace_cells k p) (form_cells k p) outward_sign T.
Proof. intros H. destruct k as [|[|[|k]]]; [apply trace0_ok; exact Fp|apply trace1_ok; exact Fp|apply trace2_ok; exact Fp|lia]. Qed.
Lemma nb_form k : (k <= 3)%nat -> match k with 0%nat => nb (shapes0 p) | 1%nat => nb (shapes1 p) | 2%nat => nb (shapes2 p) | _ => nb (shapes3 p) end = length (form_cells k p).
Proof.
  intros H. destruct k as [|[|[|[|k]]]]; [|..|lia]; unfold p; [rewrite shapes0_3|rewrite shapes1_3|rewrite shapes2_3|rewrite shapes3_3]; apply nb_ok.
Qed.
Lemma ntrace_form k : (k < 3)%nat -> match k with 0%nat => ntrace on0 p | 1%nat => ntrace on1 p | _ => ntrace on2 p end = length (trace_cells k p).
Proof.
  intros H. unfold trace_cells. rewrite length_on_sides. destruct k as [|[|[|k]]]; [| | |lia]; cbn [form_types]; unfold p; rewrite ntrace_sum; f_equal; symmetry; [apply len0|apply len1|apply len2]; exact Fp.
Qed.
Lemma signed_len sg ts c : length c = length (cells p ts) -> length (signed_traces sg p ts c) = length (on_sides p ts sides3).
Proof.
  intros L. unfold signed_traces, on_sides. assert (A : forall s, length (restrict_to p ts s c) = length (filter (on_side p (on_the s)) (cells p ts))).
  { intros s. unfold restrict_to. rewrite map_length. clear - L. revert c L. induction (cells p ts) as [|e l IH]; intros [|x c] L; try discriminate; [reflexivity|].
    cbn [combine filter fst]. destruct (on_side p (on_the s) e); cbn [length]; rewrite IH by (cbn in L; lia); reflexivity. }
  unfold all_sides, sides3. cbn [flat_map]. rewrite !app_length, !map_length, !A. reflexivity.
Qed.
Lemma trace_times k v y T : (k < 3)%nat -> length v = length (form_cells k p) -> is_trace k p v y -> restricts (trace_cells k p) (form_cells k p) outward_sign T ->
  length y = length (trace_cells k p) /\ mat_times T v y.
Proof.
  intros Hk L -> HT. split; [apply signed_len; exact L|]. apply traces_ok; [apply types_form|exact L|exact HT].
Qed.
Theorem step_weak k d t : (1 <= k <= 3)%nat -> length d = length (form_cells k p) -> length t = length (trace_cells (k - 1) p) ->
  exists E T r, dual_E k p = Some E /\ dual_T k (k - 1) p = Some T /\ dual_step E T d t = Some r /\ weak_d k p d t r.
Proof.
  intros Hk Ld Lt. destruct k as [|[|[|[|k]]]]; try lia; cbn [Nat.sub] in Lt.
  - destruct (E_of 0 ltac:(lia)) as (E & HE & RE). destruct (T_of 0 ltac:(lia)) as (T & HT & RT). cbn [dual_E dual_T Nat.sub]. rewrite HE, HT.
    pose proof (nb_form 0 ltac:(lia)) as N0. pose proof (nb_form 1 ltac:(lia)) as N1. pose proof (ntrace_form 0 ltac:(lia)) as NT. cbv beta iota in N0, N1, NT.
    eexists _, _, _. split; [reflexivity|]. split; [reflexivity|]. cbn [option_map].
    destruct (step_ok (negative (dense_T (nb (shapes1 p)) (nb (shapes0 p)) E)) (dense_T (ntrace on0 p) (nb (shapes0 p)) T) d t (nb (shapes0 p)) (length (form_cells 0 p))) as (A & B).
    + rewrite Ld, N1. apply negative_shape, dense_shape.
    + rewrite Lt, NT. apply dense_shape.
    + symmetry. exact N0.
    + split; [exact A|]. split; [exact B|]. intros v u y Lv (Lu & E' & RE' & HU) HY. cbn [Nat.sub] in *.
      destruct (trace_times 0 v y T ltac:(lia) Lv HY RT) as (Ly & MT).
      rewrite pairing_plus by (rewrite !times_len; unfold negative; rewrite map_length, (proj1 (dense_shape _ _ E)), (proj1 (dense_shape _ _ T)); reflexivity).
      rewrite (adjoint_neg _ _ E E' v u d); [|congruence|congruence|congruence| |exact HU].
      * rewrite (adjoint _ _ T T v y t); [cbn [sign_E sign_T]; ring|congruence|congruence|congruence|reflexivity|exact MT].
      * rewrite N0, N1. apply (realises_same E E' _ _ orient3 orient3); assumption.
  - destruct (E_of 1 ltac:(lia)) as (E & HE & RE). destruct (T_of 1 ltac:(lia)) as (T & HT & RT). cbn [dual_E dual_T Nat.sub]. rewrite HE, HT.
    pose proof (nb_form 1 ltac:(lia)) as N0. pose proof (nb_form 2 ltac:(lia)) as N1. pose proof (ntrace_form 1 ltac:(lia)) as NT. cbv beta iota in N0, N1, NT.
    eexists _, _, _. split; [reflexivity|]. split; [reflexivity|]. cbn [option_map].
    destruct (step_ok (dense_T (nb (shapes2 p)) (nb (shapes1 p)) E) (negative (dense_T (ntrace on1 p) (nb (shapes1 p)) T)) d t (nb (shapes1 p)) (length (form_cells 1 p))) as (A & B).
    + rewrite Ld, N1. apply dense_shape.
    + rewrite Lt, NT. apply negative_shape, dense_shape.
    + symmetry. exact N0.
    + split; [exact A|]. split; [exact B|]. intros v u y Lv (Lu & E' & RE' & HU) HY. cbn [Nat.sub] in *.
      destruct (trace_times 1 v y T ltac:(lia) Lv HY RT) as (Ly & MT).
      rewrite pairing_plus by (rewrite !times_len; unfold negative; rewrite map_length, (proj1 (dense_shape _ _ E)), (proj1 (dense_shape _ _ T)); reflexivity).
      rewrite (adjoint _ _ E E' v u d); [|congruence|congruence|congruence| |exact HU].
      * rewrite (adjoint_neg _ _ T T v y t); [cbn [sign_E sign_T]; ring|congruence|congruence|congruence|reflexivity|exact MT].
      * rewrite N0, N1. apply (realises_same E E' _ _ orient3 orient3); assumption.
  - destruct (E_of 2 ltac:(lia)) as (E & HE & RE). destruct (T_of 2 ltac:(lia)) as (T & HT & RT). cbn [dual_E dual_T Nat.sub]. rewrite HE, HT.
    pose proof (nb_form 2 ltac:(lia)) as N0. pose proof (nb_form 3 ltac:(lia)) as N1. pose proof (ntrace_form 2 ltac:(lia)) as NT. cbv beta iota in N0, N1, NT.
    eexists _, _, _. split; [reflexivity|]. split; [reflexivity|]. cbn [option_map].
    destruct (step_ok (negative (dense_T (nb (shapes3 p)) (nb (shapes2 p)) E)) (dense_T (ntrace on2 p) (nb (shapes2 p)) T) d t (nb (shapes2 p)) (length (form_cells 2 p))) as (A & B).
    + rewrite Ld, N1. apply negative_shape, dense_shape.
    + rewrite Lt, NT. apply dense_shape.
    + symmetry. exact N0.
    + split; [exact A|]. split; [exact B|]. intros v u y Lv (Lu & E' & RE' & HU) HY. cbn [Nat.sub] in *.
      destruct (trace_times 2 v y T ltac:(lia) Lv HY RT) as (Ly & MT).
      rewrite pairing_plus by (rewrite !times_len; unfold negative; rewrite map_length, (proj1 (dense_shape _ _ E)), (proj1 (dense_shape _ _ T)); reflexivity).
      rewrite (adjoint_neg _ _ E E' v u d); [|congruence|congruence|congruence| |exact HU].
      * rewrite (adjoint _ _ T T v y t); [cbn [sign_E sign_T]; ring|congruence|congruence|congruence|reflexivity|exact MT].
      * rewrite N0, N1. apply (realises_same E E' _ _ orient3 orient3); assumption.
Qed.
End Step.
