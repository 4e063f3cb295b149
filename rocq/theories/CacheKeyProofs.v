(** Proofs about the cache of chained gathering matrices (C13) and the search in one matrix (C12). *)
From Coq Require Import List Arith Bool Lia.
From Coq Require Ascii String.
Import (notations) String.
From Verif Require Import Prelude PreludeProofs AssembleModel AssembleProofs GatherModel GatherSpec GatherProofs FindProofs.
Import ListNotations.

Notation str := String.string.
Notation chars := String.list_ascii_of_string.

Lemma chars_append a b : chars (String.append a b) = chars a ++ chars b.
Proof. induction a; simpl; congruence. Qed.

Lemma chars_inj a b : chars a = chars b -> a = b.
Proof.
  intros E. rewrite <- (String.string_of_list_ascii_of_string a), <- (String.string_of_list_ascii_of_string b), E.
  reflexivity.
Qed.

Lemma chars_concat l : chars (String.concat String.EmptyString l) = concat (map chars l).
Proof.
  induction l as [|a l IH]; simpl; [reflexivity|]. destruct l as [|b l].
  - simpl. rewrite app_nil_r. reflexivity.
  - rewrite chars_append. simpl in *. rewrite IH. reflexivity.
Qed.

Lemma chars_length s : length (chars s) = String.length s.
Proof. induction s; simpl; congruence. Qed.

Lemma firstn_app_exact {A} (a b : list A) : firstn (length a) (a ++ b) = a.
Proof. rewrite firstn_app, Nat.sub_diag, firstn_all. simpl. apply app_nil_r. Qed.
Lemma skipn_app_exact {A} (a b : list A) : skipn (length a) (a ++ b) = b.
Proof. rewrite skipn_app, Nat.sub_diag, skipn_all. reflexivity. Qed.

Lemma concat_inj {A} L (l1 l2 : list (list A)) : 0 < L ->
  (forall x, In x l1 -> length x = L) -> (forall x, In x l2 -> length x = L) -> concat l1 = concat l2 -> l1 = l2.
Proof.
  intros HL. revert l2. induction l1 as [|a l1 IH]; intros [|b l2] H1 H2 E; simpl in E.
  - reflexivity.
  - assert (length b = L) by (apply H2; left; reflexivity). destruct b; [simpl in *; lia|discriminate].
  - assert (length a = L) by (apply H1; left; reflexivity). destruct a; [simpl in *; lia|discriminate].
  - assert (La : length a = L) by (apply H1; left; reflexivity).
    assert (Lb : length b = L) by (apply H2; left; reflexivity).
    assert (a = b /\ concat l1 = concat l2) as (-> & E').
    { split.
      - rewrite <- (firstn_app_exact a (concat l1)), E, La, <- Lb. apply firstn_app_exact.
      - rewrite <- (skipn_app_exact a (concat l1)), E, La, <- Lb. apply skipn_app_exact. }
    f_equal. apply IH; auto; intros; [apply H1|apply H2]; right; assumption.
Qed.

Section Key.
  Variable Obj : Type.
  Variable stamp : Obj -> str.

  Lemma key_inj L l1 l2 m1 m2 : distinct_stamps stamp (l1 ++ l2) L -> In m1 methods -> In m2 methods ->
    cache_key Obj stamp l1 m1 = cache_key Obj stamp l2 m2 -> l1 = l2 /\ m1 = m2.
  Proof.
    intros (HL & HS & HI) I1 I2 E. unfold cache_key in E. apply (f_equal chars) in E.
    rewrite !chars_append, !chars_concat in E.
    assert (Em : m1 = m2).
    { apply (f_equal (fun l => last l Ascii.zero)) in E.
      assert (LA : forall (a b : list Ascii.ascii) d, b <> [] -> last (a ++ b) d = last b d).
      { clear. induction a as [|x a IH]; intros b d N; [reflexivity|]. simpl. rewrite IH by assumption.
        destruct (a ++ b) eqn:X; [|reflexivity]. apply app_eq_nil in X. tauto. }
      rewrite !LA in E; [|destruct I2 as [<-|[<-|[]]]; discriminate|destruct I1 as [<-|[<-|[]]]; discriminate].
      destruct I1 as [<-|[<-|[]]], I2 as [<-|[<-|[]]]; try reflexivity; discriminate. }
    subst m2. split; [|reflexivity]. apply app_inv_tail in E. rewrite !map_map in E.
    apply (concat_inj L) in E; [|assumption|..].
    - clear HL I1 I2. revert l2 HS HI E. induction l1 as [|a l1 IH]; intros [|b l2] HS HI E; try discriminate; [reflexivity|].
      simpl in E. injection E as E1 E2. apply chars_inj in E1. f_equal.
      + apply HI; [left; reflexivity|apply in_or_app; right; left; reflexivity|assumption].
      + apply IH; [|intros o o' A B; apply HI|assumption].
        * intros o A. apply HS. apply in_app_or in A. destruct A; [right; apply in_or_app; left|right; apply in_or_app; right; right]; assumption.
        * apply in_app_or in A. destruct A; [right; apply in_or_app; left|right; apply in_or_app; right; right]; assumption.
        * apply in_app_or in B. destruct B; [right; apply in_or_app; left|right; apply in_or_app; right; right]; assumption.
    - intros x I. apply in_map_iff in I. destruct I as (o & <- & I). rewrite chars_length. apply HS, in_or_app. auto.
    - intros x I. apply in_map_iff in I. destruct I as (o & <- & I). rewrite chars_length. apply HS, in_or_app. auto.
  Qed.

  Definition cache_ok (cache : list (str * cgm Obj)) : Prop :=
    length cache <= 3 /\
    forall k c, In (k, c) cache -> k = cache_key Obj stamp (built_from Obj c) (built_method Obj c).

  Lemma lookup_str_In {V} (l : list (str * V)) k v : lookup String.eqb k l = Some v -> In (k, v) l.
  Proof.
    induction l as [|[k' v'] l IH]; simpl; [discriminate|]. destruct (String.eqb_spec k k') as [->|].
    - intros E. injection E as ->. auto.
    - auto.
  Qed.

  Lemma call_ok cache gms m : cache_ok cache -> cache_ok (snd (chaining_call Obj stamp cache gms m)).
  Proof.
    intros (HL & HK). unfold chaining_call.
    destruct (lookup String.eqb (cache_key Obj stamp gms m) cache) eqn:E; [split; assumption|]. simpl.
    set (c' := cache ++ [(cache_key Obj stamp gms m, mkCGM Obj gms m)]).
    assert (HK' : forall k c, In (k, c) c' -> k = cache_key Obj stamp (built_from Obj c) (built_method Obj c)).
    { intros k c I. apply in_app_or in I. destruct I as [I|[I|[]]]; [auto|]. injection I as <- <-. reflexivity. }
    destruct (Nat.ltb_spec 3 (length c')) as [L|L].
    - split; [rewrite skipn_length; lia|]. intros k c I. apply HK'. rewrite <- (firstn_skipn (length c' - 3) c').
      apply in_or_app. right. assumption.
    - split; [lia|assumption].
  Qed.

  Lemma reachable_ok cache : reachable stamp cache -> cache_ok cache.
  Proof.
    induction 1; [|apply call_ok; assumption]. split; [simpl; lia|]. intros k c [].
  Qed.

  Lemma reachable_methods cache : reachable stamp cache -> forall k c, In (k, c) cache -> In (built_method Obj c) methods.
  Proof.
    induction 1 as [|cache gms m R IH Hm]; [intros k c []|]. intros k c I. unfold chaining_call in I.
    destruct (lookup String.eqb (cache_key Obj stamp gms m) cache); [apply (IH k); assumption|]. simpl in I.
    assert (I' : In (k, c) (cache ++ [(cache_key Obj stamp gms m, mkCGM Obj gms m)])).
    { destruct (3 <? _); [|assumption].
      match type of I with In _ (skipn ?n ?l) => rewrite <- (firstn_skipn n l) end. apply in_or_app. right. assumption. }
    apply in_app_or in I'. destruct I' as [I'|[I'|[]]]; [apply (IH k); assumption|]. injection I' as _ <-. assumption.
  Qed.

  Lemma reachable_methods_ok cache L gms m : reachable stamp cache -> distinct_stamps stamp (live cache gms) L ->
    In m methods -> fst (chaining_call Obj stamp cache gms m) = mkCGM Obj gms m.
  Proof.
    intros R D Hm. assert (HM := reachable_methods cache R). destruct (reachable_ok cache R) as (_ & K). unfold chaining_call.
    destruct (lookup String.eqb (cache_key Obj stamp gms m) cache) as [c|] eqn:E; [|reflexivity]. simpl.
    apply lookup_str_In in E. assert (EK := K _ _ E). apply HM in E as Hc.
    apply (key_inj L) in EK; [|destruct D as (D0 & D1 & D2)|assumption|assumption].
    - destruct EK as (-> & ->). destruct c. reflexivity.
    - assert (I : forall o, In o (gms ++ built_from Obj c) -> In o (live cache gms)).
      { intros o I. apply in_app_or in I. apply in_or_app. destruct I as [I|I]; [auto|]. right. apply in_flat_map. eauto. }
      split; [assumption|]. split; auto.
  Qed.
End Key.

Lemma stamp_collision : exists (stamp : nat -> str) cache gms m,
  reachable stamp cache /\ In m methods /\
  (forall o o', In o (live cache gms) -> In o' (live cache gms) -> stamp o = stamp o' -> o = o') /\
  fst (chaining_call nat stamp cache gms m) <> mkCGM nat gms m.
Proof.
  pose (stamp := fun n => match n with 0 => "1"%string | 1 => "23"%string | 2 => "12"%string | _ => "3"%string end).
  exists stamp, (snd (chaining_call nat stamp [] [0; 1] "silly"%string)), [2; 3], "silly"%string.
  split; [constructor; [constructor|left; reflexivity]|]. split; [left; reflexivity|]. split.
  - intros o o' A B. simpl in A, B.
    repeat (destruct A as [<-|A]; [repeat (destruct B as [<-|B]; [try reflexivity; discriminate|]); destruct B|]). destruct A.
  - vm_compute. discriminate.
Qed.


(** * search in one matrix *)
Lemma NoDup_map_filter {A B} (f : A -> B) P (l : list A) : NoDup (map f l) -> NoDup (map f (filter P l)).
Proof.
  induction l as [|x l IH]; simpl; intros N; [constructor|]. inversion N; subst.
  destruct (P x); simpl; [constructor|]; auto.
  intros I. apply H1. apply in_map_iff in I. destruct I as (p & <- & I). apply filter_In in I. apply in_map. tauto.
Qed.

Lemma gv_index_spec v d i : gv_index v d = Some i <-> nth_error v i = Some d /\ (forall i', nth_error v i' = Some d -> i' = i).
Proof.
  unfold gv_index.
  assert (P : forall p, In p (filter (fun p => snd p =? d) (enumerate v)) <-> nth_error v (fst p) = Some d /\ snd p = d).
  { intros [k x]. rewrite filter_In. simpl. rewrite in_enumerate, Nat.eqb_eq. split; intros (A & B); subst; auto. }
  assert (ND : NoDup (map fst (filter (fun p => snd p =? d) (enumerate v)))).
  { apply NoDup_map_filter. unfold enumerate. rewrite map_fst_combine by (rewrite seq_length; reflexivity). apply seq_NoDup. }
  destruct (filter (fun p => snd p =? d) (enumerate v)) as [|p [|q l]].
  - split; [discriminate|]. intros (A & _). destruct (proj2 (P (i, d))). auto.
  - split.
    + intros E. injection E as <-. split; [apply P; left; reflexivity|].
      intros i' A. destruct (proj2 (P (i', d))) as [E|[]]; [auto|rewrite E; reflexivity].
    + intros (A & _). destruct (proj2 (P (i, d))) as [E|[]]; [auto|rewrite E; reflexivity].
  - split; [discriminate|]. intros (A & B).
    assert (fst p = i) by (apply B, P; left; reflexivity).
    assert (fst q = i) by (apply B, P; right; left; reflexivity).
    simpl in ND. inversion ND. exfalso. apply H3. left. congruence.
Qed.

Lemma gv_index_none v d : In d v -> (gv_index v d = None <-> exists i j, i <> j /\ nth_error v i = Some d /\ nth_error v j = Some d).
Proof.
  intros I. split.
  - intros E. apply In_nth_error in I. destruct I as (i & Ei).
    assert (D : ~ forall i', nth_error v i' = Some d -> i' = i).
    { intros H. assert (gv_index v d = Some i) by (apply gv_index_spec; auto). congruence. }
    destruct (find (fun j => negb (j =? i) && match nth_error v j with Some x => x =? d | None => false end) (seq 0 (length v))) as [j|] eqn:F.
    + apply find_some in F. destruct F as (_ & F). apply andb_true_iff in F. destruct F as (F1 & F2).
      apply negb_true_iff, Nat.eqb_neq in F1. destruct (nth_error v j) as [x|] eqn:Ej; [|discriminate].
      apply Nat.eqb_eq in F2. subst. exists j, i. auto.
    + exfalso. apply D. intros i' E'. assert (Hi : i' < length v) by (apply nth_error_Some; congruence).
      assert (N := find_none _ _ F i' ltac:(apply in_seq; lia)). cbv beta in N. rewrite E', Nat.eqb_refl, andb_true_r in N.
      apply negb_false_iff, Nat.eqb_eq in N. assumption.
  - intros (i & j & D & Ei & Ej). destruct (gv_index v d) as [k|] eqn:E; [|reflexivity].
    apply gv_index_spec in E. destruct E as (_ & E). rewrite <- (E _ Ei) in E. apply E in Ej. congruence.
Qed.

Lemma GM_find_spec g r d : NoDup (elements g r) ->
  match GM_find g r d with
  | Raised => exists e v i j, gv_of g r e = Some v /\ i <> j /\ nth_error v i = Some d /\ nth_error v j = Some d
  | NotFound => forall e v, gv_of g r e = Some v -> ~ In d v
  | Found (ELE, idx) => ELE <> [] /\ NoDup ELE /\
      Forall2 (fun e i => exists v, gv_of g r e = Some v /\ nth_error v i = Some d /\
                 forall i', nth_error v i' = Some d -> i' = i) ELE idx /\
      forall e v, gv_of g r e = Some v -> In d v -> In e ELE
  end.
Proof.
  intros ND. set (hits := filter (fun kv : nat * GV => existsb (Nat.eqb d) (snd kv)) (gm_local g r)).
  assert (EQ : GM_find g r d = match all_some (map (fun kv : nat * GV => gv_index (snd kv) d) hits) with
    | None => Raised | Some [] => NotFound | Some idx => Found (map fst hits, idx) end) by reflexivity.
  rewrite EQ. clear EQ.
  assert (H : forall e v, In (e, v) hits <-> gv_of g r e = Some v /\ In d v).
  { intros e v. unfold hits. rewrite filter_In. simpl. rewrite existsb_exists. unfold gv_of.
    rewrite (lookup_In_iff (gm_local g r) e v ND). split; intros (A & B); (split; [assumption|]).
    - destruct B as (y & I & E). apply Nat.eqb_eq in E. subst. assumption.
    - exists d. rewrite Nat.eqb_refl. auto. }
  destruct (all_some (map (fun kv : nat * GV => gv_index (snd kv) d) hits)) as [idx|] eqn:E.
  - apply all_some_map in E. destruct idx as [|i idx].
    + inversion E. intros e v A B. assert (I : In (e, v) hits) by (apply H; auto). rewrite <- H1 in I. destruct I.
    + assert (NE : hits <> []) by (inversion E; discriminate). split; [destruct hits; [congruence|discriminate]|].
      split; [apply NoDup_map_filter; assumption|]. split.
      * clear NE. remember (i :: idx) as is. clear Heqis. assert (HI : incl hits hits) by apply incl_refl. revert HI E. generalize hits at 1 3 4. intros hs HI E.
        induction E as [|[e v] k l l' A B IH]; simpl; constructor.
        -- exists v. assert (I : In (e, v) hits) by (apply HI; left; reflexivity). apply H in I. destruct I as (I & _).
           split; [assumption|]. apply gv_index_spec. assumption.
        -- apply IH. intros x Ix. apply HI. right. assumption.
      * intros e v A B. apply in_map_iff. exists (e, v). split; [reflexivity|]. apply H. auto.
  - assert (X : exists kv, In kv hits /\ gv_index (snd kv) d = None).
    { clear H. induction hits as [|kv l IH]; simpl in E; [discriminate|].
      destruct (gv_index (snd kv) d) eqn:G; [|exists kv; split; [left; reflexivity|assumption]].
      destruct (all_some (map (fun kv : nat * GV => gv_index (snd kv) d) l)) eqn:F; [discriminate|].
      destruct IH as (kv' & A & B); [reflexivity|]. exists kv'. split; [right; assumption|assumption]. }
    destruct X as ([e v] & I & G). apply H in I. destruct I as (A & B). apply gv_index_none in G; [|assumption].
    destruct G as (i & j & C). exists e, v, i, j. tauto.
Qed.
