(** Proofs about EdgeModel: the locations of node and edge elements. *)
From Coq Require Import List Arith Bool Lia Sorted.
From Verif Require Import Prelude PreludeProofs SpaceModel SpaceSpec SpaceProofs MeshModel MeshMapModel MeshMapProofs2 TraceModel TraceSpec TraceProofs TraceProofs2 TraceProofs3 NumModel NumSpec NumProofs EdgeModel EdgeSpec.
Import ListNotations.

Notation ndget := (dget Nat.eqb).
Notation dset_all := (fold_left (fun d kv => dset Nat.eqb d (fst kv) (snd kv))).

Lemma ddel_absent {V} (d : list (nat * V)) k : ~ In k (map fst d) -> ddel Nat.eqb d k = d.
Proof.
  intros H. induction d as [|[x v] d IH]; [reflexivity|]. cbn [ddel filter fst]. destruct (Nat.eqb_spec k x) as [->|N]; [exfalso; apply H; now left|]. cbn [negb]. f_equal. apply IH. intros X. apply H. now right.
Qed.
(** updating by new keys *)
Lemma dset_all_new {V} (mp : list (nat * V)) : forall d, NoDup (map fst mp ++ map fst d) -> dset_all mp d = rev mp ++ d.
Proof.
  induction mp as [|[k v] mp IH]; intros d H; [reflexivity|]. cbn [map app fst fold_left snd rev] in *. inversion H as [|? ? N1 N2]; subst. rewrite IH.
  - unfold dset. rewrite ddel_absent by (intros X; apply N1; apply in_app_iff; now right). rewrite <- app_assoc. reflexivity.
  - unfold dset. rewrite ddel_absent by (intros X; apply N1; apply in_app_iff; now right). cbn [map fst]. apply NoDup_Add with (a := k) (l := map fst mp ++ map fst d); [|split; assumption]. apply Add_app.
Qed.
Lemma dget_dset_all {V} (mp : list (nat * V)) t : NoDup (map fst mp) -> forall d, ndget (dset_all mp d) t = match ndget mp t with Some v => Some v | None => ndget d t end.
Proof.
  induction mp as [|[k v] mp IH]; intros ND d; [reflexivity|]. inversion ND as [|? ? N1 N2]; subst. cbn [fold_left fst snd]. rewrite (IH N2), (dget_dset _ Nat.eqb_eq). unfold dget at 3. cbn [lookup]. fold (ndget mp t).
  rewrite (Nat.eqb_sym t k). destruct (Nat.eqb_spec k t) as [->|N]; [|reflexivity]. destruct (ndget mp t) as [w|] eqn:E; [|reflexivity].
  exfalso. apply N1. apply (dget_keys _ Nat.eqb_eq). eauto.
Qed.
Lemma NoDup_app_r {A} (l l' : list A) : NoDup (l ++ l') -> NoDup l'.
Proof. induction l as [|x l IH]; [auto|]. intros H. apply IH. inversion H; assumption. Qed.
Lemma NoDup_app_sw {A} (l l' : list A) : NoDup (l ++ l') -> NoDup (l' ++ l).
Proof.
  induction l as [|x l IH]; [rewrite app_nil_r; auto|]. cbn [app]. intros H. inversion H as [|? ? N1 N2]; subst. apply NoDup_Add with (a := x) (l := l' ++ l); [apply Add_app|]. split; [apply IH; exact N2|].
  intros X. apply N1. apply in_app_iff. apply in_app_iff in X. tauto.
Qed.
(** add_new *)
Lemma add_news_In l : forall acc b, In b (fold_left add_new l acc) <-> In b acc \/ In b l.
Proof.
  induction l as [|x l IH]; intros acc b; [cbn; tauto|]. cbn [fold_left]. rewrite IH. unfold add_new. destruct (mem x acc) eqn:E.
  - apply mem_spec in E. cbn. split; [tauto|]. intros [H|[->|H]]; auto.
  - rewrite in_app_iff. cbn. tauto.
Qed.
Lemma add_news_NoDup l : forall acc, NoDup acc -> NoDup (fold_left add_new l acc).
Proof.
  induction l as [|x l IH]; intros acc H; [exact H|]. cbn [fold_left]. apply IH. unfold add_new. destruct (mem x acc) eqn:E; [exact H|].
  apply NoDup_app_sw. cbn [app]. constructor; [|exact H]. intros X. apply mem_spec in X. congruence.
Qed.
Lemma SS_app {A} (R : A -> A -> Prop) l l' : StronglySorted R (l ++ l') <-> StronglySorted R l /\ StronglySorted R l' /\ forall x y, In x l -> In y l' -> R x y.
Proof.
  induction l as [|a l IH]; cbn [app].
  - split; [intros H; split; [constructor|split; [exact H|intros x y []]]|tauto].
  - split.
    + intros H. inversion H as [|? ? H1 H2]; subst. apply IH in H1. destruct H1 as (A1 & A2 & A3). rewrite Forall_forall in H2. refine (conj _ (conj A2 _)).
      * constructor; [exact A1|]. apply Forall_forall. intros x Hx. apply H2. apply in_app_iff. now left.
      * intros x y [<-|Hx] Hy; [apply H2; apply in_app_iff; now right|apply A3; assumption].
    + intros (H1 & H2 & H3). inversion H1 as [|? ? A1 A2]; subst. constructor.
      * apply IH. refine (conj A1 (conj H2 _)). intros x y Hx Hy. apply H3; [now right|exact Hy].
      * apply Forall_forall. intros x Hx. apply in_app_iff in Hx. rewrite Forall_forall in A2. destruct Hx as [Hx|Hx]; [apply A2; exact Hx|apply H3; [now left|exact Hx]].
Qed.
Lemma add_news_sorted l : forall acc, StronglySorted lt acc -> StronglySorted le (acc ++ l) -> StronglySorted lt (fold_left add_new l acc).
Proof.
  induction l as [|x l IH]; intros acc HA H; [exact HA|]. cbn [fold_left]. unfold add_new. destruct (mem x acc) eqn:E; apply IH.
  - exact HA.
  - apply SS_app in H. destruct H as (H1 & H2 & H3). inversion H2; subst. apply SS_app. refine (conj H1 (conj _ _)); [assumption|]. intros a b Ha Hb. apply H3; [exact Ha|now right].
  - apply SS_app. refine (conj HA (conj _ _)); [repeat constructor|]. intros a b Ha [<-|[]]. apply SS_app in H. destruct H as (_ & _ & H3). specialize (H3 a x Ha ltac:(now left)).
    assert (a <> x); [|lia]. intros ->. assert (mem x acc = true) by (apply mem_spec; exact Ha). congruence.
  - rewrite <- app_assoc. exact H.
Qed.

(** * LOC_DICT *)
Definition occ (t : nat) (xs : list (ploc * nat)) : list ploc := map fst (filter (fun x => snd x =? t) xs).
Lemma occ_snoc t xs x : occ t (xs ++ [x]) = occ t xs ++ (if snd x =? t then [fst x] else []).
Proof. unfold occ. rewrite filter_app, map_app. cbn [filter]. destruct (snd x =? t); reflexivity. Qed.
Lemma in_occ t xs q : In q (occ t xs) <-> In (q, t) xs.
Proof.
  unfold occ. rewrite in_map_iff. split.
  - intros ([q' u] & <- & H). apply filter_In in H. destruct H as [H E]. apply Nat.eqb_eq in E. cbn in E. subst u. exact H.
  - intros H. exists (q, t). split; [reflexivity|]. apply filter_In. split; [exact H|]. cbn. apply Nat.eqb_refl.
Qed.
Section Loc.
  Variable lim : nat.
  Hypothesis Hlim : 1 <= lim.
  Let inv (xs : list (ploc * nat)) (st : list (nat * list ploc) * list (nat * list ploc)) : Prop :=
    NoDup (map fst (fst st)) /\
    (forall t, match ndget (fst st) t with Some l => l <> [] /\ length l < lim /\ incl l (occ t xs) | None => True end) /\
    (forall t, match ndget (snd st) t with Some l => l <> [] /\ incl l (occ t xs) | None => True end) /\
    (forall t, occ t xs <> [] -> ndget (fst st) t <> None \/ ndget (snd st) t <> None) /\
    (forall t, length (occ t xs) < lim -> ndget (snd st) t = None /\ ndget (fst st) t = match occ t xs with [] => None | l => Some l end) /\
    (forall t, length (occ t xs) = lim -> ndget (fst st) t = None /\ ndget (snd st) t = Some (occ t xs)).
  Lemma loc_inv xs : inv xs (fold_left (locate_one lim) xs ([], [])).
  Proof.
    induction xs as [|x xs IH] using rev_ind.
    - refine (conj (NoDup_nil _) (conj (fun _ => I) (conj (fun _ => I) (conj _ (conj _ _))))); intros t H.
      + exfalso. apply H. reflexivity.
      + split; reflexivity.
      + cbn in H. lia.
    - rewrite fold_left_app. cbn [fold_left]. destruct (fold_left (locate_one lim) xs ([], [])) as [loc full]. destruct x as [q u]. destruct IH as (ND & I1 & I2 & I3 & I4 & I5). cbn [fst snd] in *. unfold locate_one. cbn [fst snd].
      set (old := match ndget loc u with Some l => l | None => [] end).
      assert (Inc : forall t, incl (occ t xs) (occ t (xs ++ [(q, u)]))) by (intros t y Hy; rewrite occ_snoc; apply in_app_iff; now left).
      assert (Iold : incl (old ++ [q]) (occ u (xs ++ [(q, u)]))).
      { intros y Hy. rewrite occ_snoc. cbn [fst snd]. rewrite Nat.eqb_refl. apply in_app_iff in Hy. apply in_app_iff. destruct Hy as [Hy|Hy]; [left|right; exact Hy]. unfold old in Hy. specialize (I1 u). destruct (ndget loc u); [|destruct Hy]. apply I1. exact Hy. }
      assert (Lold : length old < lim) by (unfold old; specialize (I1 u); destruct (ndget loc u); [apply I1|cbn; lia]).
      assert (Eold : length (occ u xs) < lim -> old = occ u xs).
      { intros H. destruct (I4 u H) as [_ X]. unfold old. rewrite X. destruct (occ u xs); reflexivity. }
      assert (Eu : occ u (xs ++ [(q, u)]) = occ u xs ++ [q]) by (rewrite occ_snoc; cbn [fst snd]; rewrite Nat.eqb_refl; reflexivity).
      assert (Eo : forall t, u <> t -> occ t (xs ++ [(q, u)]) = occ t xs) by (intros t H; rewrite occ_snoc; cbn [fst snd]; destruct (Nat.eqb_spec u t); [contradiction|apply app_nil_r]).
      assert (NE : old ++ [q] <> []) by (destruct old; discriminate).
      destruct (Nat.eqb_spec (length (old ++ [q])) lim) as [EL|EL]; cbn [fst snd].
      + refine (conj _ (conj _ (conj _ (conj _ (conj _ _))))).
        * apply ddel_NoDup; [apply Nat.eqb_eq|exact ND].
        * intros t. cbn [fst snd]. rewrite (dget_ddel _ Nat.eqb_eq). destruct (Nat.eqb_spec u t); [exact I|]. specialize (I1 t). destruct (ndget loc t); [|exact I]. destruct I1 as (A & B & C). refine (conj A (conj B _)). intros y Hy. apply Inc. apply C. exact Hy.
        * intros t. cbn [fst snd]. rewrite (dget_dset _ Nat.eqb_eq). destruct (Nat.eqb_spec u t) as [<-|]; [auto|]. specialize (I2 t). destruct (ndget full t); [|exact I]. destruct I2 as (A & C). refine (conj A _). intros y Hy. apply Inc. apply C. exact Hy.
        * intros t Ht. cbn [fst snd]. rewrite (dget_ddel _ Nat.eqb_eq), (dget_dset _ Nat.eqb_eq). destruct (Nat.eqb_spec u t) as [<-|N]; [right; discriminate|]. rewrite Eo in Ht by exact N. apply I3. exact Ht.
        * intros t Ht. cbn [fst snd]. rewrite (dget_ddel _ Nat.eqb_eq), (dget_dset _ Nat.eqb_eq). destruct (Nat.eqb_spec u t) as [<-|N]; [exfalso|rewrite Eo in * by exact N; apply I4; exact Ht].
          rewrite Eu, app_length in Ht. cbn [length] in Ht. rewrite app_length in EL. cbn [length] in EL. rewrite Eold in EL by lia. lia.
        * intros t Ht. cbn [fst snd]. rewrite (dget_ddel _ Nat.eqb_eq), (dget_dset _ Nat.eqb_eq). destruct (Nat.eqb_spec u t) as [<-|N]; [|rewrite Eo in * by exact N; apply I5; exact Ht].
          split; [reflexivity|]. rewrite Eu in *. rewrite app_length in Ht. cbn [length] in Ht. rewrite Eold by lia. reflexivity.
      + rewrite app_length in EL. cbn [length] in EL. refine (conj _ (conj _ (conj _ (conj _ (conj _ _))))).
        * apply dset_NoDup; [apply Nat.eqb_eq|exact ND].
        * intros t. cbn [fst snd]. rewrite (dget_dset _ Nat.eqb_eq). destruct (Nat.eqb_spec u t) as [<-|]; [rewrite app_length; cbn [length]; refine (conj NE (conj _ Iold)); lia|]. specialize (I1 t). destruct (ndget loc t); [|exact I]. destruct I1 as (A & B & C). refine (conj A (conj B _)). intros y Hy. apply Inc. apply C. exact Hy.
        * intros t. cbn [fst snd]. specialize (I2 t). destruct (ndget full t); [|exact I]. destruct I2 as (A & C). refine (conj A _). intros y Hy. apply Inc. apply C. exact Hy.
        * intros t Ht. cbn [fst snd]. rewrite (dget_dset _ Nat.eqb_eq). destruct (Nat.eqb_spec u t) as [<-|N]; [left; discriminate|]. rewrite Eo in Ht by exact N. apply I3. exact Ht.
        * intros t Ht. cbn [fst snd]. rewrite (dget_dset _ Nat.eqb_eq). destruct (Nat.eqb_spec u t) as [<-|N]; [|rewrite Eo in * by exact N; apply I4; exact Ht].
          rewrite Eu in *. rewrite app_length in Ht. cbn [length] in Ht. rewrite Eold by lia. split; [apply I4; lia|]. destruct (occ u xs); reflexivity.
        * intros t Ht. cbn [fst snd]. rewrite (dget_dset _ Nat.eqb_eq). destruct (Nat.eqb_spec u t) as [<-|N]; [exfalso|rewrite Eo in * by exact N; apply I5; exact Ht].
          rewrite Eu, app_length in Ht. cbn [length] in Ht. rewrite Eold in EL by lia. lia.
  Qed.
  Lemma located_some xs t : occ t xs <> [] -> exists l, ndget (located_all lim xs) t = Some l /\ l <> [] /\ incl l (occ t xs) /\ (length (occ t xs) <= lim -> l = occ t xs).
  Proof.
    intros H. unfold located_all. assert (IV := loc_inv xs). destruct (fold_left (locate_one lim) xs ([], [])) as [loc full]. destruct IV as (ND & I1 & I2 & I3 & I4 & I5). cbn [fst snd] in *. rewrite (dget_dset_all _ _ ND).
    destruct (ndget loc t) as [l|] eqn:El.
    - exists l. specialize (I1 t). rewrite El in I1. destruct I1 as (A & B & C). refine (conj eq_refl (conj A (conj C _))). intros L. destruct (Nat.eq_dec (length (occ t xs)) lim) as [E|E].
      + destruct (I5 t E) as [X _]. congruence.
      + destruct (I4 t ltac:(lia)) as [_ X]. rewrite El in X. destruct (occ t xs) as [|a o]; [contradiction|]. assert (Y := f_equal (fun o => match o with Some x => x | None => [] end) X). exact Y.
    - destruct (I3 t H) as [X|X]; [congruence|]. destruct (ndget full t) as [l|] eqn:Ef; [|congruence]. exists l. specialize (I2 t). rewrite Ef in I2. destruct I2 as (A & C). refine (conj eq_refl (conj A (conj C _))). intros L.
      destruct (Nat.eq_dec (length (occ t xs)) lim) as [E|E].
      + destruct (I5 t E) as [_ Y]. congruence.
      + destruct (I4 t ltac:(lia)) as [Y _]. congruence.
  Qed.
End Loc.


(** * the gathered maps, the visited places *)
From Coq Require Import Permutation.
Lemma merged gms : forall acc, NoDup (map fst (acc ++ concat gms)) -> exists d, fold_left merge gms (Some acc) = Some d /\ Permutation d (acc ++ concat gms).
Proof.
  induction gms as [|g gms IH]; intros acc H; [exists acc; rewrite app_nil_r; auto|]. cbn [concat fold_left] in *. unfold merge at 2.
  assert (P : Permutation (rev g ++ acc) (acc ++ g)) by (rewrite <- Permutation_rev; apply Permutation_app_comm).
  rewrite dset_all_new.
  - assert (EL : (length (rev g ++ acc) =? length acc + length g) = true) by (apply Nat.eqb_eq; rewrite app_length, rev_length; lia). rewrite EL.
    destruct (IH (rev g ++ acc)) as (d & Ed & Pd).
    + eapply Permutation_NoDup; [|exact H]. apply Permutation_map. rewrite app_assoc. apply Permutation_app_tail. symmetry. exact P.
    + exists d. split; [exact Ed|]. rewrite Pd, app_assoc. apply Permutation_app_tail. exact P.
  - rewrite <- map_app. rewrite app_assoc, map_app in H. apply NoDup_app_sw in H. apply NoDup_app_r in H. rewrite map_app in H |- *. apply NoDup_app_sw. exact H.
Qed.
Lemma gathered_ok gms N : map fst (concat gms) = seq 0 N -> exists d, gathered gms N = Some d /\ forall e v, ndget d e = Some v <-> In (e, v) (concat gms).
Proof.
  intros H. destruct (merged gms []) as (d & Ed & Pd); [cbn [app]; rewrite H; apply seq_NoDup|]. cbn [app] in Pd. exists d. unfold gathered. rewrite Ed.
  assert (EL : (length d =? N) = true) by (apply Nat.eqb_eq; rewrite (Permutation_length Pd), <- (map_length fst), H; apply seq_length). rewrite EL. split; [reflexivity|]. intros e v. rewrite (dget_In _ Nat.eqb_eq).
  - split; apply Permutation_in; [exact Pd|symmetry; exact Pd].
  - eapply Permutation_NoDup; [apply Permutation_map; symmetry; exact Pd|]. rewrite H. apply seq_NoDup.
Qed.
Definition row_places (i : nat) (row : list nat) : list (ploc * nat) := combine (map (pair i) (seq 0 (length row))) row.
Lemma in_row_places i row q t : In (q, t) (row_places i row) <-> exists j, q = (i, j) /\ nth_error row j = Some t.
Proof.
  unfold row_places.
  assert (A : forall r s, In (q, t) (combine (map (pair i) (seq s (length r))) r) <-> exists j, q = (i, s + j) /\ nth_error r j = Some t).
  { induction r as [|x r IH]; intros s; cbn [length seq map combine].
    - split; [intros []|intros ([|j] & _ & X); discriminate].
    - cbn [In]. rewrite IH. split.
      + intros [[= <- <-]|(j & -> & E)]; [exists 0; rewrite Nat.add_0_r; auto|exists (S j); rewrite Nat.add_succ_r; auto].
      + intros ([|j] & -> & E); [left; injection E as ->; rewrite Nat.add_0_r; reflexivity|right; exists j; rewrite Nat.add_succ_r; auto]. }
  apply (A row 0).
Qed.
Lemma fst_row_places i row : map fst (row_places i row) = map (pair i) (seq 0 (length row)).
Proof. unfold row_places. apply map_fst_combine. rewrite map_length, seq_length. reflexivity. Qed.
Lemma SS_filter {A} (R : A -> A -> Prop) f l : StronglySorted R l -> StronglySorted R (filter f l).
Proof.
  induction 1 as [|a l H IH F]; [constructor|]. cbn [filter]. destruct (f a); [|exact IH]. constructor; [exact IH|]. apply Forall_forall. intros x Hx. apply filter_In in Hx. rewrite Forall_forall in F. apply F. apply Hx.
Qed.
Lemma SS_pair i n : forall s, StronglySorted ploc_lt (map (pair i) (seq s n)).
Proof.
  induction n as [|n IH]; intros s; [constructor|]. cbn [seq map]. constructor; [apply IH|]. apply Forall_forall. intros x Hx. apply in_map_iff in Hx. destruct Hx as (j & <- & Hj). apply in_seq in Hj. right. cbn. lia.
Qed.
Definition all_places (gm : list (nat * list nat)) : list (ploc * nat) := flat_map (fun ev => row_places (fst ev) (snd ev)) gm.
Lemma in_all_places gm e i t : In ((e, i), t) (all_places gm) <-> entry gm e i t.
Proof.
  unfold all_places, entry. rewrite in_flat_map. split.
  - intros ([e' v] & Hv & H). apply in_row_places in H. destruct H as (j & [= <- <-] & E). exists v. auto.
  - intros (v & Hv & E). exists (e, v). split; [exact Hv|]. apply in_row_places. exists i. auto.
Qed.
Lemma all_places_sorted gm : forall s, map fst gm = seq s (length gm) -> StronglySorted ploc_lt (map fst (all_places gm)).
Proof.
  induction gm as [|[e v] gm IH]; intros s H; [constructor|]. cbn [length seq map] in H. injection H as -> H. cbn [all_places flat_map]. fold (all_places gm). rewrite map_app. cbn [fst snd]. rewrite fst_row_places.
  apply SS_app. refine (conj (SS_pair _ _ _) (conj (IH (S s) H) _)). intros x y Hx Hy. apply in_map_iff in Hx. destruct Hx as (j & <- & _). apply in_map_iff in Hy. destruct Hy as ([[f k] t] & <- & Hy). apply in_all_places in Hy.
  destruct Hy as (w & Hw & _). apply (in_map fst) in Hw. rewrite H in Hw. apply in_seq in Hw. left. cbn in *. lia.
Qed.
Lemma visited_ok gm N d : map fst gm = seq 0 N -> (forall e v, ndget d e = Some v <-> In (e, v) gm) -> visited d N = Some (all_places gm).
Proof.
  intros H D. unfold visited. unfold concat_some.
  assert (A : all_some (map (fun i => option_map (fun row => combine (map (pair i) (seq 0 (length row))) row) (ndget d i)) (seq 0 N)) = Some (map (fun ev => row_places (fst ev) (snd ev)) gm)).
  { rewrite <- H, map_map. apply all_some_fun. intros [e v] Hv. cbn [fst snd]. rewrite (proj2 (D e v) Hv). reflexivity. }
  rewrite A. cbn [option_map]. f_equal. unfold all_places. symmetry. apply flat_map_concat_map.
Qed.
Lemma occ_sorted gm N t : map fst gm = seq 0 N -> StronglySorted ploc_lt (occ t (all_places gm)).
Proof.
  intros H. assert (LN : length gm = N) by (rewrite <- (map_length fst), H; apply seq_length). assert (X := all_places_sorted gm 0). rewrite LN in X. specialize (X H). unfold occ. revert X. generalize (all_places gm). induction l as [|x l IH]; intros X; [constructor|].
  cbn [map filter] in *. inversion X as [|? ? A B]; subst. destruct (snd x =? t); [|apply IH; exact A]. cbn [map]. constructor; [apply IH; exact A|]. rewrite Forall_forall in *. intros y Hy. apply B. apply in_map_iff in Hy. destruct Hy as (z & <- & Hz). apply filter_In in Hz. apply in_map. apply Hz.
Qed.
(** * what a core gets *)
Lemma row_step full : forall row d, NoDup (map fst d) -> (forall t, In t row -> ndget full t <> None) -> (forall t l, ndget d t = Some l -> ndget full t = Some l) ->
  exists d', fold_left (fun (acc : option (list (nat * list ploc))) t => match acc with
        | None => None
        | Some d => match ndget d t with
                    | Some _ => Some d
                    | None => match ndget full t with Some l => Some (dset Nat.eqb d t l) | None => None end
                    end
        end) row (Some d) = Some d' /\ NoDup (map fst d') /\ (forall t l, ndget d' t = Some l -> ndget full t = Some l) /\ (forall t, In t (map fst d') <-> In t (map fst d) \/ In t row).
Proof.
  induction row as [|t row IH]; intros d ND HF HD; [exists d; cbn; tauto|]. cbn [fold_left]. destruct (ndget d t) as [l|] eqn:E.
  - destruct (IH d ND ltac:(intros u Hu; apply HF; now right) HD) as (d' & A & B & C & D). exists d'. refine (conj A (conj B (conj C _))). intros u. rewrite D. cbn [In]. split; [tauto|]. intros [H|[<-|H]]; auto. left. apply (dget_keys _ Nat.eqb_eq). eauto.
  - destruct (ndget full t) as [l|] eqn:El; [|exfalso; apply (HF t); [now left|exact El]].
    destruct (IH (dset Nat.eqb d t l)) as (d' & A & B & C & D).
    + apply dset_NoDup; [apply Nat.eqb_eq|exact ND].
    + intros u Hu. apply HF. now right.
    + intros u l'. rewrite (dget_dset _ Nat.eqb_eq). destruct (Nat.eqb_spec t u) as [<-|]; [congruence|apply HD].
    + exists d'. refine (conj A (conj B (conj C _))). intros u. rewrite D. rewrite !(dget_keys _ Nat.eqb_eq). cbn [In].
      split; [intros [(w & X)|H]; [|auto]|intros [(w & X)|[<-|H]]; [|left; exists l; rewrite (dget_dset _ Nat.eqb_eq), Nat.eqb_refl; reflexivity|auto]].
      * rewrite (dget_dset _ Nat.eqb_eq) in X. destruct (Nat.eqb_spec t u) as [<-|]; [auto|left; eauto].
      * left. destruct (Nat.eq_dec t u) as [<-|N]; [exists l; rewrite (dget_dset _ Nat.eqb_eq), Nat.eqb_refl; reflexivity|exists w; rewrite (dget_dset _ Nat.eqb_eq); destruct (Nat.eqb_spec t u); [contradiction|exact X]].
Qed.
Lemma local_ok full mp gm : (forall e v, ndget mp e = Some v <-> In (e, v) gm) -> (forall e i t, entry gm e i t -> ndget full t <> None) ->
  forall els, (forall e, In e els -> exists v, In (e, v) gm) ->
  exists d, local_places full mp els = Some d /\ NoDup (map fst d) /\ (forall t l, ndget d t = Some l -> ndget full t = Some l) /\ (forall t, In t (map fst d) <-> exists e i, In e els /\ entry gm e i t).
Proof.
  intros HM HF. unfold local_places.
  assert (A : forall els d, (forall e, In e els -> exists v, In (e, v) gm) -> NoDup (map fst d) -> (forall t l, ndget d t = Some l -> ndget full t = Some l) ->
    exists d', fold_left (fun (acc : option (list (nat * list ploc))) i => match ndget mp i with
      | None => None
      | Some row => fold_left (fun acc t => match acc with
        | None => None
        | Some d => match ndget d t with
                    | Some _ => Some d
                    | None => match ndget full t with Some l => Some (dset Nat.eqb d t l) | None => None end
                    end
        end) row acc
      end) els (Some d) = Some d' /\ NoDup (map fst d') /\ (forall t l, ndget d' t = Some l -> ndget full t = Some l) /\ (forall t, In t (map fst d') <-> In t (map fst d) \/ exists e i, In e els /\ entry gm e i t)).
  { induction els as [|e els IH]; intros d HE ND HD.
    - exists d. cbn [fold_left]. refine (conj eq_refl (conj ND (conj HD _))). intros t. split; [tauto|]. intros [H|(e & i & [] & _)]. exact H.
    - cbn [fold_left]. destruct (HE e ltac:(now left)) as (v & Hv). rewrite (proj2 (HM e v) Hv).
      destruct (row_step full v d ND) as (d1 & E1 & N1 & C1 & D1); [|exact HD|].
      { intros t Ht. apply In_nth_error in Ht. destruct Ht as [i Hi]. apply (HF e i). exists v. auto. }
      rewrite E1. destruct (IH d1 ltac:(intros f Hf; apply HE; now right) N1 C1) as (d2 & E2 & N2 & C2 & D2). exists d2. refine (conj E2 (conj N2 (conj C2 _))). intros t. rewrite D2, D1. split.
      + intros [[H|H]|(f & i & Hf & H)]; [tauto| |right; exists f, i; split; [now right|exact H]]. apply In_nth_error in H. destruct H as [i Hi]. right. exists e, i. split; [now left|]. exists v. auto.
      + intros [H|(f & i & [<-|Hf] & H)]; [tauto| |right; exists f, i; auto]. left. right. destruct H as (v' & Hv' & Hi). apply HM in Hv', Hv. assert (v' = v) by congruence. subst v'. eapply nth_error_In. exact Hi. }
  intros els HE. destruct (A els [] HE) as (d & E & ND & C & D); [constructor|discriminate|]. exists d. refine (conj E (conj ND (conj C _))). intros t. rewrite D. cbn. tauto.
Qed.
