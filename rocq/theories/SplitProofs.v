(** Proofs for C24. *)
From Coq Require Import List Arith ZArith Bool Lia Sorting.Sorted.
From Verif Require Import Prelude PreludeProofs RingSum AssembleModel EwcModel AsmModel LinAlgModel BmatProofs.
Import ListNotations.

Fixpoint consec (P : nat -> nat -> Prop) (a : nat) (l : list nat) : Prop :=
  match l with [] => True | b :: l' => P a b /\ consec P b l' end.
Lemma consec_nth P : forall l a t, consec P a l -> t < length l -> P (nth t (a :: l) 0) (nth t l 0).
Proof.
  induction l as [|b l IH]; intros a t H Ht; simpl in Ht; [lia|]. destruct H as [H1 H2]. destruct t as [|t]; [exact H1|].
  apply (IH b t H2). lia.
Qed.
Lemma consec_snoc P : forall l a b, consec P a l -> P (last (a :: l) 0) b -> consec P a (l ++ [b]).
Proof.
  induction l as [|c l IH]; intros a b H1 H2; [simpl; auto|]. destruct H1 as [H1 H3]. split; [exact H1|]. apply IH; [exact H3|exact H2].
Qed.
Lemma last_def {A} (l : list A) x d d' : last (x :: l) d = last (x :: l) d'.
Proof. revert x. induction l as [|y l IH]; intros x; [reflexivity|]. change (last (y :: l) d = last (y :: l) d'). apply IH. Qed.

Lemma skipn_skipn_plus {A} (l : list A) : forall y x, skipn x (skipn y l) = skipn (y + x) l.
Proof. induction l as [|a l IH]; intros [|y] x; simpl; rewrite ?skipn_nil; auto. Qed.

Section Split.
  Variables (f : nat) (ind : nat -> nat).
  Hypothesis F : 0 < f.
  Definition okp (a b : nat) : Prop := a < b /\ (forall j, a < j < b -> ind j < ind a + f).

  Lemma split_loop_ok : forall n i a thr, a < i -> thr <= ind a + f -> (forall j, a < j < i -> ind j < thr) ->
    let cuts := split_loop f i thr (map ind (seq i n)) in
    let z := last (a :: cuts) 0 in
    consec okp a cuts /\ (forall c, In c cuts -> i <= c < i + n) /\ (forall j, z < j < i + n -> ind j < ind z + f).
  Proof using F.
    induction n as [|n IH]; intros i a thr Ha Ht Hj; cbn zeta.
    - simpl. split; [exact I|]. split; [tauto|]. intros j Hjj. specialize (Hj j ltac:(lia)). lia.
    - cbn [seq map split_loop]. destruct (Nat.leb_spec thr (ind i)).
      + destruct (IH (S i) i (thr + f) ltac:(lia) ltac:(lia) ltac:(intros; lia)) as (A & B & C). split; [|split].
        * split; [|exact A]. split; [exact Ha|]. intros j Hjj. specialize (Hj j ltac:(lia)). lia.
        * intros c [<-|Hc]; [lia|]. specialize (B c Hc). lia.
        * intros j. replace (i + S n) with (S i + n) by lia. exact (C j).
      + destruct (IH (S i) a thr ltac:(lia) ltac:(lia)) as (A & B & C).
        { intros j Hjj. destruct (Nat.eq_dec j i) as [->|N]; [assumption|]. apply Hj. lia. }
        split; [exact A|]. split.
        * intros c Hc. specialize (B c Hc). lia.
        * intros j. replace (i + S n) with (S i + n) by lia. exact (C j).
  Qed.
End Split.

Lemma consec_sorted f ind : forall l a, consec (okp f ind) a l -> StronglySorted lt (a :: l).
Proof.
  induction l as [|b l IH]; intros a H; [repeat constructor|]. destruct H as [[H1 _] H2]. specialize (IH b H2).
  constructor; [exact IH|]. constructor; [exact H1|]. apply StronglySorted_inv in IH. destruct IH as [_ IH].
  eapply Forall_impl; [|exact IH]. intros; simpl in *; lia.
Qed.

Section Lines.
  Context {A : Type}.
  Implicit Types lines : list (list A).
  Definition ptr lines (i : nat) : nat := sum (map (@length A) (firstn i lines)).

  Lemma length_concat lines : length (concat lines) = sum (map (@length A) lines).
  Proof. induction lines as [|l lines IH]; [reflexivity|]. simpl. rewrite app_length, IH. reflexivity. Qed.

  Lemma split_A_ok lines f : 0 < f -> lines <> [] ->
    exists ST SL, split_A (map (ptr lines) (seq 0 (S (length lines)))) f (length lines) = Some (ST, SL) /\
      length SL = S ST /\ 1 <= ST /\ hd 1 SL = 0 /\ last SL 0 = length lines /\ consec (okp f (ptr lines)) 0 (tl SL).
  Proof.
    intros F NE. unfold split_A. rewrite map_length, seq_length. rewrite (proj2 (Nat.eqb_eq _ _)) by lia.
    cbv zeta. cbn [seq map split_loop]. replace (f <=? ptr lines 0) with false by (symmetry; apply Nat.leb_gt; exact F).
    destruct (split_loop_ok f (ptr lines) F (length lines) 1 0 f ltac:(lia) ltac:(unfold ptr; simpl; lia) ltac:(intros; lia)) as (C1 & C2 & C3).
    set (cuts := split_loop f 1 f (map (ptr lines) (seq 1 (length lines)))) in *.
    assert (L : last (0 :: cuts) 0 <= length lines).
    { destruct cuts as [|c cuts0] eqn:E; [simpl; lia|]. assert (X : In (last (0 :: c :: cuts0) 0) (c :: cuts0)).
      { change (last (0 :: c :: cuts0) 0) with (last (c :: cuts0) 0). rewrite (app_removelast_last 0 (l := c :: cuts0)) at 2 by discriminate. apply in_or_app. right. left. reflexivity. }
      specialize (C2 _ X). lia. }
    assert (P : 0 < length lines) by (destruct lines; [congruence|simpl; lia]).
    destruct (Nat.eqb_spec (last (0 :: cuts) 0) (length lines)) as [E|E].
    - assert (1 <= length cuts) by (destruct cuts; simpl in *; lia).
      rewrite (proj2 (Nat.leb_le _ _)) by assumption. rewrite (proj2 (Nat.eqb_eq _ _)) by (simpl; lia).
      exists (length cuts), (0 :: cuts). repeat split; auto.
    - rewrite (proj2 (Nat.leb_le _ _)) by lia. rewrite (proj2 (Nat.eqb_eq _ _)) by (rewrite app_length; simpl; lia).
      exists (length cuts + 1), ((0 :: cuts) ++ [length lines]). split; [reflexivity|]. split; [rewrite app_length; simpl; lia|]. split; [lia|].
      split; [reflexivity|]. split; [apply last_last|]. change (tl ((0 :: cuts) ++ [length lines])) with (cuts ++ [length lines]).
      apply consec_snoc; [exact C1|]. split; [lia|]. intros j Hj. apply C3. lia.
  Qed.

  Lemma concat_slices {B} (l : list B) : forall SL a, consec (fun x y => x <= y) a SL -> a <= length l -> last (a :: SL) 0 = length l ->
    concat (map (fun t => slice (nth t (a :: SL) 0) (nth t SL 0) l) (seq 0 (length SL))) = skipn a l.
  Proof.
    induction SL as [|b SL IH]; intros a H Ha HL.
    - simpl in *. subst a. rewrite skipn_all. reflexivity.
    - destruct H as [H1 H2]. cbn [length seq map concat]. rewrite <- seq_shift, map_map. cbn [nth].
      assert (Hb : b <= length l).
      { assert (X : forall S c, consec (fun x y => x <= y) c S -> c <= last (c :: S) 0).
        { clear. induction S as [|d S IH]; intros c H; [simpl; lia|]. destruct H as [H1 H2]. specialize (IH d H2). change (last (c :: d :: S) 0) with (last (d :: S) 0). lia. }
        specialize (X SL b H2). change (last (a :: b :: SL) 0) with (last (b :: SL) 0) in HL. lia. }
      specialize (IH b H2 Hb HL). unfold slice at 1. cbn [nth] in IH |- *. rewrite IH.
      rewrite <- (firstn_skipn (b - a) (skipn a l)) at 2. f_equal. rewrite skipn_skipn_plus. f_equal. lia.
  Qed.

  Lemma ptr_slice lines a b : a <= b -> ptr lines a + length (concat (slice a b lines)) = ptr lines b.
  Proof.
    intros H. unfold ptr, slice. rewrite length_concat. replace b with (a + (b - a)) at 2 by lia.
    rewrite <- sum_app, <- map_app. f_equal. f_equal. 
    revert a b H. induction lines as [|x lines IH]; intros a b H; [rewrite skipn_nil, !firstn_nil; reflexivity|].
    destruct a as [|a]; [simpl; reflexivity|]. simpl. f_equal. destruct b as [|b]; [lia|]. simpl. apply IH. lia.
  Qed.

  Lemma okp_le f lines : forall l a, consec (okp f (ptr lines)) a l -> consec (fun x y => x <= y) a l.
  Proof. induction l as [|b l IH]; intros a H; [exact I|]. destruct H as [[H1 _] H2]. split; [lia|auto]. Qed.

  Lemma split_ok lines f : 0 < f -> lines <> [] ->
    exists ST SL, split_A (map (ptr lines) (seq 0 (S (length lines)))) f (length lines) = Some (ST, SL) /\
      length SL = S ST /\ hd 1 SL = 0 /\ last SL 0 = length lines /\ StronglySorted lt SL /\
      concat (map (fun t => slice (nth t SL 0) (nth (S t) SL 0) lines) (seq 0 ST)) = lines /\
      forall t, t < ST -> length (concat (slice (nth t SL 0) (nth (S t) SL 0 - 1) lines)) < f.
  Proof.
    intros F NE. destruct (split_A_ok lines f F NE) as (ST & SL & E & L & P & H0 & HL & C). exists ST, SL. split; [exact E|].
    destruct SL as [|z SL]; [simpl in L; lia|]. simpl in H0. subst z. cbn [tl] in C. simpl in L. injection L as L. repeat split; auto.
    - simpl. congruence.
    - apply (consec_sorted f (ptr lines)). exact C.
    - rewrite <- L. apply (concat_slices lines SL 0 (okp_le f lines SL 0 C)); [lia|exact HL].
    - intros t Ht. pose proof (consec_nth _ SL 0 t C ltac:(lia)) as [H1 H2]. change (nth (S t) (0 :: SL) 0) with (nth t SL 0).
      set (a := nth t (0 :: SL) 0) in *. set (b := nth t SL 0) in *.
      pose proof (ptr_slice lines a (b - 1) ltac:(lia)) as PS. destruct (Nat.eq_dec (b - 1) a) as [Eb|Nb].
      + rewrite Eb in *. lia.
      + specialize (H2 (b - 1) ltac:(lia)). lia.
  Qed.

  Lemma nth_locate (L : list (list A)) d : forall s i, i < length (concat L) ->
    exists b j, locate (map (@length A) L) s i = (s + b, j) /\ b < length L /\ j < length (nth b L []) /\ nth i (concat L) d = nth j (nth b L []) d.
  Proof.
    induction L as [|l L IH]; intros s i H; [simpl in H; lia|]. cbn [map concat] in *. rewrite app_length in H.
    destruct (Nat.ltb_spec i (length l)) as [G|G].
    - exists 0, i. rewrite locate_head by exact G. repeat split; simpl; try lia; [f_equal; lia|]. rewrite app_nth1 by exact G. reflexivity.
    - replace i with (length l + (i - length l)) by lia. rewrite locate_tail. destruct (IH (S s) (i - length l) ltac:(lia)) as (b & j & E1 & E2 & E3 & E4).
      exists (S b), j. rewrite E1. split; [f_equal; lia|]. split; [simpl; lia|]. split; [exact E3|]. rewrite app_nth2 by lia. replace (length l + (i - length l) - length l) with (i - length l) by lia. exact E4.
  Qed.
End Lines.

Section Transfer.
  Variable K : CRing.
  Add Ring Kring6 : (Rth K).

  Lemma indptr_ptr lines : indptr K lines = map (ptr lines) (seq 0 (S (length lines))).
  Proof. reflexivity. Qed.

  Lemma all_some_map {A B} (g : A -> option B) (h : A -> B) l : (forall x, In x l -> g x = Some (h x)) -> all_some (map g l) = Some (map h l).
  Proof.
    induction l as [|x l IH]; intros H; [reflexivity|]. cbn. rewrite (H x) by (left; reflexivity). rewrite IH; [reflexivity|]. intros y Hy. apply H. right. exact Hy.
  Qed.

  Lemma flat_some {A} (l : list A) (g : A -> nat) : flat_map (fun x => [g x]) l = map g l.
  Proof. induction l; simpl; congruence. Qed.

  Lemma vstack_rows nc (L : list (list (list (nat * K)))) : L <> [] ->
    exists B, bmat K (map (fun M => [Some (view K M)]) (map (CSR K nc) L)) = Some B /\ nrow K B = length (concat L) /\ ncol K B = nc /\
      forall i j, i < length (concat L) -> j < nc -> ent K B i j = entry (CSR K nc (concat L)) i j.
  Proof.
    intros NE. rewrite map_map. set (bl := map (fun x => [Some (view K (CSR K nc x))]) L).
    assert (R : all_some (map (block_rows K) bl) = Some (map (@length _) L)).
    { unfold bl. rewrite map_map. apply all_some_map. intros x _. reflexivity. }
    assert (C : block_cols K bl 0 = Some nc).
    { unfold block_cols, bl. rewrite flat_map_concat_map, map_map, <- flat_map_concat_map. cbn [nth view ncol shape snd].
      rewrite flat_some. destruct L as [|l L]; [congruence|]. cbn [map]. replace (forallb _ _) with true; [reflexivity|].
      symmetry. apply forallb_forall. intros x Hx. apply in_map_iff in Hx. destruct Hx as (y & <- & _). apply Nat.eqb_refl. }
    unfold bmat. destruct bl as [|row0 bl'] eqn:EB; [destruct L; [congruence|discriminate]|]. rewrite <- EB in *.
    assert (row0 = [Some (view K (CSR K nc (hd [] L)))]) as ->.
    { destruct L as [|l L]; [congruence|]. unfold bl in EB. cbn in EB. injection EB as <- _. reflexivity. }
    replace (forallb _ bl) with true.
    2:{ symmetry. apply forallb_forall. intros row Hr. unfold bl in Hr. apply in_map_iff in Hr. destruct Hr as (y & <- & _). reflexivity. }
    rewrite R. cbn [length seq map all_some]. rewrite C. eexists. split; [reflexivity|]. cbn [nrow ncol ent]. split; [|split].
    - clear. induction L as [|l L IH]; [reflexivity|]. cbn [map concat]. rewrite app_length, <- IH. reflexivity.
    - unfold sum. cbn. lia.
    - intros i j Hi Hj. destruct (nth_locate L [] 0 i Hi) as (b & i' & E1 & E2 & E3 & E4). rewrite E1. rewrite locate_head by exact Hj.
      cbn [Nat.add]. unfold bl. rewrite (nth_indep _ [] [Some (view K (CSR K nc []))]) by (rewrite map_length; exact E2).
      rewrite (map_nth (fun x => [Some (view K (CSR K nc x))]) L [] b). cbn [nth view ent entry]. rewrite E4. reflexivity.
  Qed.

  Lemma hstack_cols nr (L : list (list (list (nat * K)))) : L <> [] ->
    exists B, bmat K [map (fun M => Some (view K M)) (map (CSC K nr) L)] = Some B /\ nrow K B = nr /\ ncol K B = length (concat L) /\
      forall i j, i < nr -> j < length (concat L) -> ent K B i j = entry (CSC K nr (concat L)) i j.
  Proof.
    intros NE. rewrite map_map. set (row := map (fun x => Some (view K (CSC K nr x))) L).
    assert (R : block_rows K row = Some nr).
    { unfold block_rows, row. rewrite flat_map_concat_map, map_map, <- flat_map_concat_map. cbn [nth view nrow shape fst].
      rewrite flat_some. destruct L as [|l L]; [congruence|]. cbn [map]. replace (forallb _ _) with true; [reflexivity|].
      symmetry. apply forallb_forall. intros x Hx. apply in_map_iff in Hx. destruct Hx as (y & <- & _). apply Nat.eqb_refl. }
    assert (C : all_some (map (block_cols K [row]) (seq 0 (length row))) = Some (map (@length _) L)).
    { replace (map (block_cols K [row]) (seq 0 (length row))) with (map (fun x => Some (length x)) L).
      - clear. induction L as [|l L IH]; [reflexivity|]. cbn. rewrite IH. reflexivity.
      - apply (nth_ext _ _ None None); [rewrite !map_length, seq_length; unfold row; rewrite map_length; reflexivity|].
        intros n Hn. rewrite map_length in Hn. rewrite nth_map_seq by (unfold row; rewrite map_length; exact Hn).
        rewrite (nth_indep _ None (Some (length (@nil (list (nat * K)))))) by (rewrite map_length; exact Hn).
        rewrite (map_nth (fun x => Some (length x)) L []). cbn [Nat.add]. unfold block_cols. cbn [flat_map]. unfold row.
        rewrite (nth_indep _ None (Some (view K (CSC K nr [])))) by (rewrite map_length; exact Hn).
        rewrite (map_nth (fun x => Some (view K (CSC K nr x))) L []). reflexivity. }
    unfold bmat. cbn [forallb map all_some]. rewrite Nat.eqb_refl. cbn [andb]. rewrite R, C. eexists. split; [reflexivity|]. cbn [nrow ncol ent]. split; [|split].
    - unfold sum. cbn. lia.
    - clear. induction L as [|l L IH]; [reflexivity|]. cbn [map concat]. rewrite app_length, <- IH. reflexivity.
    - intros i j Hi Hj. destruct (nth_locate L [] 0 j Hj) as (b & j' & E1 & E2 & E3 & E4). rewrite E1. rewrite locate_head by exact Hi.
      cbn [Nat.add nth]. unfold row. rewrite (nth_indep _ None (Some (view K (CSC K nr [])))) by (rewrite map_length; exact E2).
      rewrite (map_nth (fun x => Some (view K (CSC K nr x))) L [] b). cbn [nth view ent entry]. rewrite E4. reflexivity.
  Qed.

  Lemma transfer_ok f (M : sparse K) (own : lmat K) : 0 < f -> (is_csr K M = true \/ is_csc K M = true) ->
    nrow K own = fst (shape M) -> ncol K own = snd (shape M) ->
    exists pieces S, send_pieces K f M = Some pieces /\ receive K (is_csr K M) own pieces = Some S /\
      nrow K S = nrow K own /\ ncol K S = ncol K own /\
      forall i j, i < nrow K own -> j < ncol K own -> ent K S i j = radd (ent K own i j) (entry M i j).
  Proof.
    intros F TY HR HC.
    assert (ONE : exists S, receive K (is_csr K M) own [M] = Some S /\ nrow K S = nrow K own /\ ncol K S = ncol K own /\
      forall i j, i < nrow K own -> j < ncol K own -> ent K S i j = radd (ent K own i j) (entry M i j)).
    { cbn [receive]. unfold madd, view. cbn [nrow ncol ent]. rewrite HR, HC, !Nat.eqb_refl. cbn [andb]. eexists. split; [reflexivity|]. cbn. auto. }
    unfold send_pieces. destruct (Nat.leb_spec (nnz K M) f) as [G|G].
    { destruct ONE as (S & O). exists [M], S. split; [reflexivity|exact O]. }
    destruct M as [rows|nc rows|nr cols]; [destruct TY; discriminate| |].
    - assert (NE : rows <> []) by (intros ->; cbn in G; lia).
      destruct (split_ok rows f F NE) as (ST & SL & E & L & H0 & HL & SO & CO & _). rewrite indptr_ptr, E.
      destruct (Nat.eqb_spec ST 1) as [E1|N1]. { destruct ONE as (S & O). exists [CSR K nc rows], S. split; [reflexivity|exact O]. }
      rewrite <- (map_map (fun t => slice (nth t SL 0) (nth (S t) SL 0) rows) (CSR K nc)).
      set (P := map (fun t => slice (nth t SL 0) (nth (S t) SL 0) rows) (seq 0 ST)) in *.
      assert (LP : length P = ST) by (unfold P; rewrite map_length, seq_length; reflexivity).
      assert (NP : P <> []) by (intros EP; rewrite EP in CO; simpl in CO; congruence).
      destruct (vstack_rows nc P NP) as (B & EB & B1 & B2 & B3). rewrite CO in B1, B3.
      assert (exists x y l, map (CSR K nc) P = x :: y :: l) as (x & y & l & EX).
      { destruct P as [|p1 [|p2 P']]; [congruence|simpl in LP; congruence|]. eexists _, _, _. reflexivity. }
      exists (map (CSR K nc) P). eexists. split; [reflexivity|]. cbn [shape fst snd] in HR, HC. split.
      { unfold receive. cbn [is_csr]. rewrite EX. rewrite <- EX. rewrite EB. unfold madd. rewrite B1, B2, HR, HC, !Nat.eqb_refl. reflexivity. }
      cbn [nrow ncol ent]. split; [congruence|]. split; [congruence|]. intros i j Hi Hj. rewrite B3 by congruence. reflexivity.
    - assert (NE : cols <> []) by (intros ->; cbn in G; lia).
      destruct (split_ok cols f F NE) as (ST & SL & E & L & H0 & HL & SO & CO & _). rewrite indptr_ptr, E.
      destruct (Nat.eqb_spec ST 1) as [E1|N1]. { destruct ONE as (S & O). exists [CSC K nr cols], S. split; [reflexivity|exact O]. }
      rewrite <- (map_map (fun t => slice (nth t SL 0) (nth (S t) SL 0) cols) (CSC K nr)).
      set (P := map (fun t => slice (nth t SL 0) (nth (S t) SL 0) cols) (seq 0 ST)) in *.
      assert (LP : length P = ST) by (unfold P; rewrite map_length, seq_length; reflexivity).
      assert (NP : P <> []) by (intros EP; rewrite EP in CO; simpl in CO; congruence).
      destruct (hstack_cols nr P NP) as (B & EB & B1 & B2 & B3). rewrite CO in B2, B3.
      assert (exists x y l, map (CSC K nr) P = x :: y :: l) as (x & y & l & EX).
      { destruct P as [|p1 [|p2 P']]; [congruence|simpl in LP; congruence|]. eexists _, _, _. reflexivity. }
      exists (map (CSC K nr) P). eexists. split; [reflexivity|]. cbn [shape fst snd] in HR, HC. split.
      { unfold receive. cbn [is_csr]. rewrite EX. rewrite <- EX. rewrite EB. unfold madd. rewrite B1, B2, HR, HC, !Nat.eqb_refl. reflexivity. }
      cbn [nrow ncol ent]. split; [congruence|]. split; [congruence|]. intros i j Hi Hj. rewrite B3 by congruence. reflexivity.
  Qed.
End Transfer.
