(** Proofs about NumModel: stepwise numberings, and the places of the arrays as cells. *)
From Coq Require Import List Arith Bool Lia.
From Verif Require Import Prelude PreludeProofs SpaceModel SpaceSpec SpaceProofs MeshModel MeshMapModel MeshMapProofs MeshMapProofs2 TraceModel TraceProofs TraceProofs2 TraceProofs3 NumModel NumSpec.
Import ListNotations.

(** * numberings made element after element *)
Section Stepwise.
  Context {T : Type} (V : T -> Prop) (G : nat * T -> nat * T -> Prop) (num : nat -> T -> nat).
  Definition old (e : nat) (q : T) : Prop := exists f q0, f < e /\ V q0 /\ G (f, q0) (e, q).
  Definition stepwise (k : nat) : Prop := forall e q, e < k -> V q ->
    (exists f q0, f < e /\ V q0 /\ G (f, q0) (e, q) /\ num e q = num f q0) \/
    (~ old e q /\ (forall f q0, f < e -> V q0 -> num f q0 < num e q) /\ (forall q', V q' -> num e q' = num e q -> q' = q)).
  Variables (Q : nat * T -> nat * T -> Prop).
  Hypothesis Qrefl : forall a, Q a a.
  Hypothesis Qsym : forall a b, Q a b -> Q b a.
  Hypothesis Qtrans : forall a b c, Q a b -> Q b c -> Q a c.
  Variable N : nat.
  Hypothesis QG : forall e q f q', e < N -> f < N -> V q -> V q' -> G (e, q) (f, q') -> Q (e, q) (f, q').
  Hypothesis St : stepwise N.
  Lemma step_sound : forall e q f q', e < N -> f < N -> V q -> V q' -> num e q = num f q' -> Q (e, q) (f, q').
  Proof.
    assert (A : forall b e q f q', e < b -> f < b -> b <= N -> V q -> V q' -> num e q = num f q' -> Q (e, q) (f, q')).
    { induction b as [|b IH]; intros e q f q' He Hf Hb Vq Vq' E; [lia|].
      assert (B : forall e q f q', e < b -> f <= b -> V q -> V q' -> num e q = num f q' -> Q (e, q) (f, q')).
      { clear e q f q' He Hf Vq Vq' E. intros e q f q' He Hf Vq Vq' E. destruct (Nat.eq_dec f b) as [->|Nf]; [|apply IH; auto; lia].
        destruct (St b q' ltac:(lia) Vq') as [(f0 & q0 & H1 & H2 & H3 & H4)|(_ & H1 & _)].
        - apply (Qtrans _ (f0, q0)); [apply IH; auto; lia|]. apply QG; auto; lia.
        - exfalso. specialize (H1 e q He Vq). lia. }
      destruct (Nat.eq_dec e b) as [->|Ne]; [|apply B; auto; lia].
      destruct (Nat.eq_dec f b) as [->|Nf]; [|apply Qsym; apply B; auto; lia].
      destruct (St b q' ltac:(lia) Vq') as [(f0 & q0 & H1 & H2 & H3 & H4)|(_ & _ & H1)].
      - apply (Qtrans _ (f0, q0)); [|apply QG; auto; lia]. apply Qsym. apply B; auto; congruence.
      - rewrite (H1 q Vq E). apply Qrefl. }
    intros. apply (A N); auto.
  Qed.
  Hypothesis H1 : forall e q f q', e <= f -> f < N -> V q -> V q' -> (e, q) <> (f, q') -> Q (e, q) (f, q') -> old f q'.
  Hypothesis Vdec : forall q q' : T, {q = q'} + {q <> q'}.
  Lemma step_complete : forall e q f q', e < N -> f < N -> V q -> V q' -> Q (e, q) (f, q') -> num e q = num f q'.
  Proof.
    assert (A : forall b e q f q', e < b -> f < b -> b <= N -> V q -> V q' -> Q (e, q) (f, q') -> num e q = num f q').
    { induction b as [|b IH]; intros e q f q' He Hf Hb Vq Vq' E; [lia|].
      assert (B : forall e q f q', e < b -> f <= b -> V q -> V q' -> Q (e, q) (f, q') -> num e q = num f q').
      { clear e q f q' He Hf Vq Vq' E. intros e q f q' He Hf Vq Vq' E. destruct (Nat.eq_dec f b) as [->|Nf]; [|apply IH; auto; lia].
        destruct (St b q' ltac:(lia) Vq') as [(f0 & q0 & K1 & K2 & K3 & K4)|(K & _ & _)].
        - rewrite K4. apply IH; auto; [lia|]. apply (Qtrans _ (b, q')); [exact E|]. apply Qsym. apply QG; auto; lia.
        - exfalso. apply K. apply (H1 e q b q'); auto; try lia. intros [= X _]. lia. }
      destruct (Nat.eq_dec e b) as [->|Ne]; [|apply B; auto; lia].
      destruct (Nat.eq_dec f b) as [->|Nf]; [|symmetry; apply B; auto; lia].
      destruct (Vdec q q') as [->|Nq]; [reflexivity|].
      destruct (St b q' ltac:(lia) Vq') as [(f0 & q0 & K1 & K2 & K3 & K4)|(K & _ & _)].
      - rewrite K4. symmetry. apply B; auto. apply (Qtrans _ (b, q')); [apply QG; auto; lia|]. apply Qsym. exact E.
      - exfalso. apply K. apply (H1 b q b q'); auto; congruence. }
    intros. apply (A N); auto.
  Qed.
End Stepwise.
(** if the numbers tell the classes apart, the condition holds *)
Lemma step_needs {T} (V : T -> Prop) G num (Q : nat * T -> nat * T -> Prop) N : stepwise V G num N ->
  (forall e q f q', e < N -> f < N -> V q -> V q' -> Q (e, q) (f, q') -> num e q = num f q') ->
  (forall e q f q', e <= f -> f < N -> V q -> V q' -> (e, q) <> (f, q') -> Q (e, q) (f, q') -> old V G f q').
Proof.
  intros St H e q f q' Le Lf Vq Vq' Nq K. apply H in K; auto; [|lia].
  destruct (St f q' Lf Vq') as [(f0 & q0 & A & B & C & _)|(_ & A & B)]; [exists f0, q0; auto|]. exfalso. destruct (Nat.eq_dec e f) as [->|Ne].
  - apply Nq. f_equal. apply B; auto.
  - specialize (A e q ltac:(lia) Vq). lia.
Qed.

(** * places and cells *)
Lemma nat_cell_eqb (a b : NumModel.cell) : cell_eqb a b = true <-> a = b.
Proof.
  destruct a as [c i], b as [d j]. unfold cell_eqb. cbn [fst snd]. rewrite andb_true_iff, Nat.eqb_eq. destruct (list_eq_dec Nat.eq_dec i j); split.
  - intros [-> _]. subst. reflexivity.
  - intros [= -> ->]. auto.
  - intros [_ H]. discriminate.
  - intros [= -> ->]. congruence.
Qed.
Lemma in_combine_seq {A} (l : list A) c s : In (c, s) (combine (seq 0 (length l)) l) <-> nth_error l c = Some s.
Proof.
  assert (G : forall (l : list A) o c s, In (c, s) (combine (seq o (length l)) l) <-> o <= c /\ nth_error l (c - o) = Some s).
  { clear. induction l as [|x l IH]; intros o c s; cbn [length seq combine].
    - split; [intros []|]. intros [_ H]. destruct (c - o); discriminate.
    - split.
      + intros [[= <- <-]|H]; [rewrite Nat.sub_diag; split; [lia|reflexivity]|]. apply IH in H. destruct H as [H K]. split; [lia|].
        replace (c - o) with (S (c - S o)) by lia. exact K.
      + intros [H K]. destruct (Nat.eq_dec o c) as [->|Nc].
        * left. rewrite Nat.sub_diag in K. cbn in K. congruence.
        * right. apply IH. split; [lia|]. replace (c - o) with (S (c - S o)) in K by lia. exact K. }
  rewrite G. rewrite Nat.sub_0_r. split; [tauto|intros; split; [lia|assumption]].
Qed.
Lemma in_cellsC ss c i : In (c, i) (cellsC ss) <-> exists s, nth_error ss c = Some s /\ Forall2 lt i s.
Proof.
  unfold cellsC. rewrite in_flat_map. split.
  - intros ([c' s] & H & K). cbn [fst snd] in K. apply in_map_iff in K. destruct K as (i' & [= -> ->] & K). apply in_combine_seq in H. apply idxC_In in K. eauto.
  - intros (s & H & K). exists (c, s). split; [apply in_combine_seq; exact H|]. cbn [fst snd]. apply in_map. apply idxC_In. exact K.
Qed.
Lemma inb_lt s i : inb s i = true <-> Forall2 lt i s.
Proof.
  revert i. induction s as [|n s IH]; intros [|x i]; cbn [inb]; split; intros H; try discriminate; try constructor; try (inversion H; fail); auto.
  - apply andb_true_iff in H. apply Nat.ltb_lt. apply H.
  - apply IH. apply andb_true_iff in H. apply H.
  - inversion H; subst. apply andb_true_iff. split; [apply Nat.ltb_lt; assumption|apply IH; assumption].
Qed.
Lemma in_cellsF ss c i : In (c, i) (cellsF ss) <-> In (c, i) (cellsC ss).
Proof.
  rewrite in_cellsC. unfold cellsF. rewrite in_flat_map. split.
  - intros ([c' s] & H & K). cbn [fst snd] in K. apply in_map_iff in K. destruct K as (i' & [= -> ->] & K). apply in_combine_seq in H. rewrite grid_all_idx in K. apply in_grid, inb_lt in K. eauto.
  - intros (s & H & K). exists (c, s). split; [apply in_combine_seq; exact H|]. cbn [fst snd]. apply in_map. rewrite grid_all_idx. apply in_grid, inb_lt. exact K.
Qed.
Lemma NoDup_idxC s : NoDup (idxC s).
Proof.
  induction s as [|n s IH]; cbn [idxC]; [repeat constructor; intros []|]. apply NoDup_flat_map; [apply seq_NoDup| |].
  - intros a _. apply NoDup_map_inj; [congruence|exact IH].
  - intros a a' b _ _ H H'. apply in_map_iff in H, H'. destruct H as (x & <- & _), H' as (y & E & _). congruence.
Qed.
Lemma NoDup_combine_l {A B} (l : list A) (m : list B) : NoDup l -> NoDup (combine l m).
Proof.
  revert m. induction l as [|x l IH]; intros [|y m] H; cbn; try constructor; inversion H; subst; auto. intros K. apply in_combine_l in K. contradiction.
Qed.
Lemma combine_key {A} (l : list A) c s s' : In (c, s) (combine (seq 0 (length l)) l) -> In (c, s') (combine (seq 0 (length l)) l) -> s = s'.
Proof. rewrite !in_combine_seq. congruence. Qed.
Lemma NoDup_cellsC ss : NoDup (cellsC ss).
Proof.
  unfold cellsC. apply NoDup_flat_map; [apply NoDup_combine_l, seq_NoDup| |].
  - intros [c s] _. apply NoDup_map_inj; [congruence|apply NoDup_idxC].
  - intros [c s] [c' s'] b H H' K K'. cbn [fst snd] in K, K'. apply in_map_iff in K, K'. destruct K as (i & <- & _), K' as (i' & [= -> _] & _).
    f_equal. eapply combine_key; eassumption.
Qed.

Definition types (k : nform) (d : nat) : list ctype := match k with F0 => node_types d | F1 => edge_types d | F2 => face_types d end.
Definition toC (k : nform) (d : nat) (q : NumModel.cell) : SpaceSpec.cell := combine (nth (fst q) (types k d) []) (snd q).
Lemma types_len k d t : In t (types k d) -> length t = d.
Proof.
  destruct k; cbn [types]; unfold node_types, edge_types, face_types.
  - intros [<-|[]]. apply repeat_length.
  - intros H. apply in_map_iff in H. destruct H as (c & <- & _). rewrite map_length, seq_length. reflexivity.
  - intros H. apply in_map_iff in H. destruct H as (c & <- & _). rewrite map_length, seq_length. reflexivity.
Qed.
Lemma types_nodup k d : NoDup (types k d).
Proof.
  assert (X : forall g : bool -> bool, (forall b b', g b = g b' -> b = b') -> NoDup (map (fun c => map (fun a => g (a =? c)) (seq 0 d)) (seq 0 d))).
  { intros g Hg. apply NoDup_map_inj; [|apply seq_NoDup]. intros c c' Hc Hc' E. apply in_seq in Hc, Hc'.
    assert (K := f_equal (fun l => nth_error l c) E). cbn beta in K. rewrite !nth_map_seq_lt in K by lia. injection K as K. apply Hg in K. rewrite Nat.eqb_refl in K. symmetry in K. apply Nat.eqb_eq in K. exact K. }
  destruct k; cbn [types]; unfold node_types, edge_types, face_types.
  - repeat constructor. intros [].
  - apply (X (fun b => b)). auto.
  - apply (X negb). intros [] []; auto; discriminate.
Qed.
Lemma types_are_ok k p : SpaceProofs.types_ok p (types k (length p)).
Proof. split; [apply types_nodup|]. apply types_len. Qed.

Lemma nth_sizes p t a : a < length p -> a < length t -> nth a (sizes p t) 0 = size (nth a p 0) (nth a t true).
Proof. revert t a. induction p as [|n p IH]; intros [|b t] [|a] H K; cbn in *; try lia; auto. apply IH; lia. Qed.
Lemma nth_map_lt {A B} (f : A -> B) l a d d' : a < length l -> nth a (map f l) d = f (nth a l d').
Proof. revert a. induction l as [|x l IH]; intros [|a] H; cbn in *; try lia; auto. apply IH. lia. Qed.
Lemma nth_seq0 a n d : a < n -> nth a (seq 0 n) d = a. Proof. intros H. rewrite seq_nth by exact H. reflexivity. Qed.
Lemma nth_types k d c a : c < length (types k d) -> a < d ->
  nth a (nth c (types k d) []) true = match k with F0 => false | F1 => a =? c | F2 => negb (a =? c) end.
Proof.
  unfold ctype; destruct k; cbn [types]; unfold node_types, edge_types, face_types; intros Hc Ha; unfold ctype in *.
  - cbn in Hc. replace c with 0 by lia. cbn [nth]. clear Hc. revert a Ha. induction d as [|d IH]; intros [|a] Ha; cbn; try lia; auto. apply IH. lia.
  - rewrite map_length, seq_length in Hc. rewrite (nth_map_lt _ _ c [] 0) by (rewrite seq_length; exact Hc). rewrite (nth_map_lt _ _ a true 0) by (rewrite seq_length; exact Ha). rewrite !nth_seq0 by assumption. reflexivity.
  - rewrite map_length, seq_length in Hc. rewrite (nth_map_lt _ _ c [] 0) by (rewrite seq_length; exact Hc). rewrite (nth_map_lt _ _ a true 0) by (rewrite seq_length; exact Ha). rewrite !nth_seq0 by assumption. reflexivity.
Qed.
Lemma length_types k d : length (types k d) = match k with F0 => 1 | _ => d end.
Proof. destruct k; cbn [types]; unfold node_types, edge_types, face_types; [reflexivity| |]; rewrite map_length, seq_length; reflexivity. Qed.
Lemma mem_spec x l : mem x l = true <-> In x l.
Proof. unfold mem. rewrite existsb_exists. split; [intros (y & H & K); apply Nat.eqb_eq in K; subst; exact H|intros H; exists x; split; [exact H|apply Nat.eqb_refl]]. Qed.
Lemma passed_spec k d c ax : c < length (types k d) -> ax < d -> mem c (passed k d ax) = negb (nth ax (nth c (types k d) []) true).
Proof.
  intros Hc Ha. rewrite nth_types by assumption. rewrite length_types in Hc. apply eq_true_iff_eq. rewrite mem_spec. destruct k; cbn [passed].
  - split; [reflexivity|]. intros _. left. lia.
  - rewrite filter_In, in_seq, negb_true_iff, Nat.eqb_neq. rewrite negb_true_iff, Nat.eqb_neq. split; [intros [_ H] E; congruence|]. intros H. split; [lia|congruence].
  - rewrite negb_involutive, Nat.eqb_eq. split; [intros [<-|[]]; reflexivity|intros ->; now left].
Qed.
Lemma shapes_types k p : shapes_of k p = map (sizes p) (types k (length p)).
Proof.
  assert (L : length (shapes_of k p) = length (types k (length p))).
  { rewrite length_types. destruct k; cbn [shapes_of]; unfold shapes0, shapes1, shapes2; [reflexivity| |]; rewrite map_length, seq_length; reflexivity. }
  apply nth_ext with (d := []) (d' := sizes p []); [rewrite map_length; exact L|]. intros c Hc. rewrite L in Hc. rewrite map_nth.
  assert (LT : length (nth c (types k (length p)) []) = length p) by (apply (types_len k), nth_In, Hc).
  assert (LS : length (nth c (shapes_of k p) []) = length p).
  { rewrite length_types in Hc. destruct k; cbn [shapes_of]; unfold shapes0, shapes1, shapes2.
    - replace c with 0 by lia. cbn [nth]. apply map_length.
    - rewrite (nth_map_lt _ _ c [] 0) by (rewrite seq_length; exact Hc). rewrite upd_length. apply map_length.
    - rewrite (nth_map_lt _ _ c [] 0) by (rewrite seq_length; exact Hc). apply upd_length. }
  apply nth_ext with (d := 0) (d' := 0); [rewrite length_sizes; congruence|]. intros a Ha. rewrite LS in Ha.
  rewrite nth_sizes by lia. rewrite nth_types by assumption. rewrite length_types in Hc. unfold size.
  destruct k; cbn [shapes_of]; unfold shapes0, shapes1, shapes2.
  - replace c with 0 by lia. cbn [nth]. rewrite (nth_map_lt _ _ a 0 0) by exact Ha. lia.
  - rewrite (nth_map_lt _ _ c [] 0) by (rewrite seq_length; exact Hc). rewrite nth_seq0 by exact Hc. destruct (Nat.eqb_spec a c) as [->|Na].
    + rewrite upd_nth_same by (rewrite map_length; exact Ha). rewrite (nth_map_lt _ _ c 0 0) by exact Ha. lia.
    + rewrite upd_nth_other by exact Na. rewrite (nth_map_lt _ _ a 0 0) by exact Ha. lia.
  - rewrite (nth_map_lt _ _ c [] 0) by (rewrite seq_length; exact Hc). rewrite nth_seq0 by exact Hc. destruct (Nat.eqb_spec a c) as [->|Na]; cbn [negb].
    + rewrite upd_nth_same by exact Ha. lia.
    + rewrite upd_nth_other by exact Na. reflexivity.
Qed.
Lemma cells_toC k p : cells p (types k (length p)) = map (toC k (length p)) (cellsF (shapes_of k p)).
Proof.
  rewrite shapes_types. unfold cells, cellsF. rewrite map_length.
  assert (G : forall (l : list ctype) o, (forall c t, nth_error l c = Some t -> nth (o + c) (types k (length p)) [] = t) ->
    flat_map (cells_t p) l = map (toC k (length p)) (flat_map (fun cs => map (pair (fst cs)) (all_idx (snd cs))) (combine (seq o (length l)) (map (sizes p) l)))).
  { induction l as [|t l IH]; intros o H; [reflexivity|]. cbn [flat_map length seq map combine]. rewrite map_app. f_equal.
    - cbn [fst snd]. rewrite map_map. unfold cells_t. rewrite grid_all_idx. apply map_ext. intros i. unfold toC. cbn [fst snd].
      specialize (H 0 t eq_refl). rewrite Nat.add_0_r in H. rewrite H. reflexivity.
    - apply IH. intros c t' Hc. specialize (H (S c) t' Hc). rewrite <- H. f_equal. lia. }
  apply G. intros c t Hc. cbn [Nat.add]. apply nth_error_nth with (d := []) in Hc. exact Hc.
Qed.
(** places of an element with degrees p *)
Definition place (k : nform) (p : list nat) (q : NumModel.cell) : Prop := In q (cellsC (shapes_of k p)).
Lemma place_spec k p c i : place k p (c, i) <-> c < length (types k (length p)) /\ Forall2 lt i (sizes p (nth c (types k (length p)) [])).
Proof.
  unfold place. rewrite in_cellsC, shapes_types. split.
  - intros (s & H & K). rewrite nth_error_map in H. destruct (nth_error (types k (length p)) c) as [t|] eqn:E; [|discriminate]. injection H as <-.
    split; [apply nth_error_Some; congruence|]. rewrite (nth_error_nth (A := ctype) _ _ [] E). exact K.
  - intros [H K]. exists (sizes p (nth c (types k (length p)) [])). split; [|exact K]. rewrite nth_error_map. rewrite (nth_error_nth' (A := ctype) _ [] H). reflexivity.
Qed.
Lemma place_len k p c i : place k p (c, i) -> length i = length p /\ length (nth c (types k (length p)) []) = length p.
Proof.
  intros H. apply place_spec in H. destruct H as [H K]. assert (L : length (nth c (types k (length p)) []) = length p) by (apply (types_len k), nth_In, H).
  split; [|exact L]. apply SpaceProofs.F2_length in K. rewrite length_sizes in K by exact L. exact K.
Qed.
Lemma toC_inj k p q q' : place k p q -> place k p q' -> toC k (length p) q = toC k (length p) q' -> q = q'.
Proof.
  destruct q as [c i], q' as [c' i']. intros H H' E. destruct (place_len _ _ _ _ H) as [L1 L2], (place_len _ _ _ _ H') as [L1' L2'].
  apply place_spec in H, H'. unfold toC in E. cbn [fst snd] in E.
  assert (A := f_equal (map fst) E). rewrite !map_fst_combine in A by lia. assert (B := f_equal (map snd) E). rewrite !map_snd_combine in B by lia.
  f_equal; [|exact B]. apply (proj1 (NoDup_nth _ []) (types_nodup k (length p))); [apply H|apply H'|exact A].
Qed.
Lemma place_toC k p q : place k p q -> In (toC k (length p) q) (cells p (types k (length p))).
Proof. intros H. rewrite cells_toC. apply in_map. destruct q. apply in_cellsF. exact H. Qed.
Lemma toC_place k p x : In x (cells p (types k (length p))) -> exists q, place k p q /\ x = toC k (length p) q.
Proof. rewrite cells_toC. intros H. apply in_map_iff in H. destruct H as ([c i] & <- & H). apply in_cellsF in H. exists (c, i). auto. Qed.
Lemma nth_combine {A B} (t : list A) (i : list B) a d d' : length t = length i -> a < length t -> nth_error (combine t i) a = Some (nth a t d, nth a i d').
Proof. revert i a. induction t as [|x t IH]; intros [|y i] [|a] L H; cbn in *; try lia; try reflexivity. apply IH; lia. Qed.

(** the place on the side of the one element which is passed to a place of the other *)
Definition src (k : nform) (p : list nat) (j : nat) (q : NumModel.cell) : option NumModel.cell :=
  let ss := shapes_of k p in let ax := j / 2 in let up := Nat.odd j in
  if mem (fst q) (passed k (length p) ax) && (nth ax (snd q) 0 =? end_of ss (fst q) ax (negb up))
  then Some (fst q, upd (snd q) ax (fun _ => end_of ss (fst q) ax up)) else None.
Lemma end_of_spec k p c ax up : c < length (types k (length p)) -> ax < length p -> nth ax (nth c (types k (length p)) []) true = false ->
  end_of (shapes_of k p) c ax up = if up then nth ax p 0 else 0.
Proof.
  intros Hc Ha E. unfold end_of. destruct up; [|reflexivity]. rewrite shapes_types. rewrite (nth_map_lt (A := ctype) (sizes p) (types k (length p)) c [] []) by exact Hc.
  rewrite nth_sizes; [|exact Ha|]. { rewrite E. cbn [size]. lia. } rewrite (types_len k (length p)); [exact Ha|]. apply nth_In. exact Hc.
Qed.
Lemma src_spec k p j q q0 : j / 2 < length p -> place k p q ->
  (src k p j q = Some q0 <-> place k p q0 /\ touching p (j / 2) (Nat.odd j) (toC k (length p) q0) (toC k (length p) q)).
Proof.
  intros Ha Hq. destruct q as [c i], q0 as [c0 i0]. destruct (place_len _ _ _ _ Hq) as [L1 L2]. assert (HS := Hq). apply place_spec in HS. destruct HS as [Hc Hi].
  unfold src. cbn [fst snd]. set (ax := j / 2) in *. set (up := Nat.odd j) in *. rewrite passed_spec by assumption.
  set (t := nth c (types k (length p)) []) in *. split.
  - destruct (negb (nth ax t true) && _) eqn:E; [|discriminate]. apply andb_true_iff in E. destruct E as [E1 E2]. apply negb_true_iff in E1. apply Nat.eqb_eq in E2.
    intros [= <- <-]. unfold t in E1. rewrite end_of_spec in E2 |- * by assumption. fold t in E1.
    assert (Hp : place k p (c, upd i ax (fun _ => if up then nth ax p 0 else 0))).
    { apply place_spec. split; [exact Hc|]. fold t. assert (LS := length_sizes p t L2). apply F2_lt_intro; [rewrite upd_length; lia|]. intros a Hb. destruct (Nat.eq_dec a ax) as [->|Na].
      - rewrite upd_nth_same by lia. rewrite nth_sizes by lia. rewrite E1. cbn [size]. destruct up; lia.
      - rewrite upd_nth_other by exact Na. apply (F2_lt_nth _ _ a Hi). exact Hb. }
    split; [exact Hp|]. unfold touching, toC. cbn [fst snd]. fold t. refine (conj _ (conj _ _)).
    + rewrite (nth_combine t _ ax true 0) by (rewrite ?upd_length; lia). rewrite upd_nth_same by lia. rewrite E1. reflexivity.
    + rewrite (nth_combine t _ ax true 0) by lia. rewrite E1, E2. destruct up; reflexivity.
    + intros a Na. destruct (Nat.lt_ge_cases a (length p)) as [Hb|Hb].
      * rewrite !(nth_combine t _ a true 0) by (rewrite ?upd_length; lia). rewrite upd_nth_other by exact Na. reflexivity.
      * rewrite !(proj2 (nth_error_None _ _)); [reflexivity| |]; rewrite combine_length, ?upd_length; lia.
  - intros (Hp & T1 & T2 & T3). destruct (place_len _ _ _ _ Hp) as [L1' L2']. assert (HS := Hp). apply place_spec in HS. destruct HS as [Hc' Hi'].
    unfold toC in T1, T2, T3. cbn [fst snd] in T1, T2, T3. fold t in T2, T3. set (t' := nth c0 (types k (length p)) []) in *.
    rewrite (nth_combine t' _ ax true 0) in T1 by lia. rewrite (nth_combine t _ ax true 0) in T2 by lia.
    assert (T1a := f_equal (fun o => match o with Some x => fst x | None => true end) T1). cbn beta iota delta [fst] in T1a.
    assert (T1b := f_equal (fun o => match o with Some x => snd x | None => 0 end) T1). cbn beta iota delta [snd] in T1b.
    assert (T2a := f_equal (fun o => match o with Some x => fst x | None => true end) T2). cbn beta iota delta [fst] in T2a.
    assert (T2b := f_equal (fun o => match o with Some x => snd x | None => 0 end) T2). cbn beta iota delta [snd] in T2b.
    assert (T3' : forall a, a <> ax -> a < length p -> nth a t' true = nth a t true /\ nth a i0 0 = nth a i 0).
    { intros a Na Hb. specialize (T3 a Na). rewrite !(nth_combine _ _ a true 0) in T3 by lia. split.
      - exact (f_equal (fun o => match o with Some x => fst x | None => true end) T3).
      - exact (f_equal (fun o => match o with Some x => snd x | None => 0 end) T3). }
    assert (Et : t' = t). { apply nth_ext with (d := true) (d' := true); [lia|]. intros a Hb. destruct (Nat.eq_dec a ax) as [->|Na]; [congruence|apply T3'; [exact Na|lia]]. }
    assert (Ec : c0 = c). { apply (proj1 (NoDup_nth _ []) (types_nodup k (length p))); [exact Hc'|exact Hc|exact Et]. }
    rewrite T2a. cbn [negb andb]. unfold t in T2a. rewrite !end_of_spec by assumption.
    assert (Eb : nth ax i 0 =? (if negb up then nth ax p 0 else 0) = true) by (apply Nat.eqb_eq; rewrite T2b; destruct up; reflexivity).
    rewrite Eb. subst c0. do 2 f_equal. apply (list_ext _ _ ax).
    + rewrite upd_length. lia.
    + rewrite upd_nth_same by lia. congruence.
    + intros a Na. rewrite upd_nth_other by exact Na. destruct (Nat.lt_ge_cases a (length p)) as [Hb|Hb]; [symmetry; apply T3'; assumption|]. rewrite !nth_overflow by lia. reflexivity.
Qed.
