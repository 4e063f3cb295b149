(** Lemmas on boxes of indices, einsum and multilinear values. *)
From Coq Require Import List Arith Bool Lia Permutation Ring.
From Verif Require Import Prelude RingSum MdmModel MdmSpec.
Import ListNotations.

Lemma nat_list_eqb_iff l m : nat_list_eqb l m = true <-> l = m.
Proof.
  revert m. induction l as [|a l IH]; intros [|b m]; simpl; try (split; congruence).
  rewrite andb_true_iff, Nat.eqb_eq, IH. split; [intros [-> ->]; reflexivity|]. intros E. inversion E. auto.
Qed.
Lemma nat_list_eqb_refl l : nat_list_eqb l l = true.
Proof. apply nat_list_eqb_iff. reflexivity. Qed.
Lemma mem_In f l : mem f l = true <-> In f l.
Proof.
  unfold mem. rewrite existsb_exists. split.
  - intros (x & I & E). apply Nat.eqb_eq in E. subst. exact I.
  - intros I. exists f. split; [exact I|apply Nat.eqb_refl].
Qed.
Lemma mem_false f l : mem f l = false <-> ~ In f l.
Proof. rewrite <- mem_In. destruct (mem f l); split; congruence. Qed.

Lemma index_of_ok f l k : index_of f l = Some k <-> nth_error l k = Some f /\ forall k', k' < k -> nth_error l k' <> Some f.
Proof.
  revert k. induction l as [|g l IH]; intros k; simpl.
  - split; [discriminate|]. destruct k; simpl; intros [E _]; discriminate.
  - destruct (Nat.eqb_spec g f) as [->|D].
    + split.
      * intros E. injection E as <-. simpl. split; [reflexivity|]. intros k' H. lia.
      * intros [E H]. destruct k; [reflexivity|]. exfalso. apply (H 0); [lia|reflexivity].
    + destruct k as [|k]; simpl.
      * split; [|intros [E _]; congruence]. destruct (index_of f l); simpl; discriminate.
      * split.
        -- destruct (index_of f l) as [k0|] eqn:E; simpl; [|discriminate]. intros E'. injection E' as ->.
           destruct (proj1 (IH k) eq_refl) as [A B]. split; [exact A|].
           intros [|k'] H; simpl; [congruence|]. apply B. lia.
        -- intros [A B]. assert (index_of f l = Some k) as ->; [|reflexivity].
           apply IH. split; [exact A|]. intros k' H. apply (B (S k')). lia.
Qed.
Lemma index_of_None f l : index_of f l = None <-> ~ In f l.
Proof.
  induction l as [|g l IH]; simpl; [tauto|]. destruct (Nat.eqb_spec g f) as [->|D].
  - split; [discriminate|tauto].
  - destruct (index_of f l); simpl; split; try congruence.
    + intros H. exfalso. apply H. right. destruct (in_dec Nat.eq_dec f l) as [I|I]; [exact I|].
      apply IH in I. discriminate.
    + intros _ [E|I]; [congruence|]. apply IH in I; auto.
Qed.

Lemma drop_at_map {A B} (h : A -> B) k l : drop_at k (map h l) = map h (drop_at k l).
Proof. revert k. induction l as [|a l IH]; intros [|k]; simpl; [reflexivity..|]. rewrite IH. reflexivity. Qed.
Lemma drop_at_length {A} k (l : list A) : k < length l -> length (drop_at k l) = length l - 1.
Proof.
  revert k. induction l as [|a l IH]; intros [|k] H; simpl in *; try lia.
  rewrite IH by lia. destruct l; simpl in *; lia.
Qed.
(** reading the kept axes *)
Lemma map_nth_seq_drop (a : list nat) k : map (fun i => nth i a 0) (drop_at k (seq 0 (length a))) = drop_at k a.
Proof.
  rewrite <- drop_at_map. f_equal. apply nth_ext with (d := 0) (d' := 0); [now rewrite map_length, seq_length|].
  intros i H. rewrite map_length, seq_length in H.
  rewrite nth_indep with (d' := (fun i => nth i a 0) 0) by (rewrite map_length, seq_length; lia).
  rewrite (map_nth (fun i => nth i a 0)), seq_nth by lia. reflexivity.
Qed.

Lemma box_length ds a : In a (box ds) -> length a = length ds.
Proof.
  revert a. induction ds as [|d ds IH]; simpl; intros a H; [destruct H as [<-|[]]; reflexivity|].
  apply in_flat_map in H. destruct H as (i & _ & H). apply in_map_iff in H. destruct H as (b & <- & H).
  simpl. rewrite (IH b H). reflexivity.
Qed.
Lemma box_cons_In d ds i a : In (i :: a) (box (d :: ds)) <-> i < d /\ In a (box ds).
Proof.
  simpl. rewrite in_flat_map. split.
  - intros (j & H & H'). apply in_map_iff in H'. destruct H' as (b & E & H'). injection E as -> ->.
    apply in_seq in H. split; [lia|exact H'].
  - intros [H H']. exists i. split; [apply in_seq; lia|]. apply in_map_iff. exists a. auto.
Qed.
Lemma box_NoDup ds : NoDup (box ds).
Proof.
  induction ds as [|d ds IH]; simpl; [constructor; [simpl; tauto|constructor]|].
  assert (forall l, NoDup l -> NoDup (flat_map (fun i => map (cons i) (box ds)) l)) as H; [|apply H, seq_NoDup].
  induction l as [|i l IHl]; simpl; intros N; [constructor|]. inversion N as [|? ? N1 N2]; subst.
  assert (forall (l1 l2 : list (list nat)), NoDup l1 -> NoDup l2 -> (forall x, In x l1 -> ~ In x l2) -> NoDup (l1 ++ l2)) as A.
  { induction l1 as [|x l1 IH1]; simpl; intros l2 D1 D2 D3; [exact D2|]. inversion D1; subst. constructor.
    - rewrite in_app_iff. intros [H|H]; [tauto|]. apply (D3 x); auto.
    - apply IH1; auto. }
  apply A; [|auto|].
  - apply FinFun.Injective_map_NoDup; [|exact IH]. intros x y E. injection E. auto.
  - intros x Hx Hy. apply in_map_iff in Hx. destruct Hx as (b & <- & _).
    apply in_flat_map in Hy. destruct Hy as (j & Hj & Hy). apply in_map_iff in Hy. destruct Hy as (b' & E & _).
    injection E as -> _. tauto.
Qed.

Section P.
  Variable K : CRing.
  Add Ring Kring : (Rth K).
  Local Open Scope ring_s.

  Lemma bsum_box_cons d ds (g : list nat -> K) :
    bsum (box (d :: ds)) g = bsum (seq 0 d) (fun i => bsum (box ds) (fun a => g (i :: a))).
  Proof. simpl. rewrite bsum_flat_map. apply bsum_ext. intros i _. apply bsum_map. Qed.

  (** * mval *)
  Lemma mval_ext ds : forall (T T' : list nat -> K) xs, (forall a, In a (box ds) -> T a = T' a) ->
    mval K ds T xs = mval K ds T' xs.
  Proof.
    induction ds as [|d ds IH]; intros T T' xs H; simpl; [apply H; simpl; auto|]. destruct xs as [|x xs]; [reflexivity|].
    apply bsum_ext. intros i Hi. apply in_seq in Hi. f_equal. apply IH. intros a Ha. apply H.
    apply box_cons_In. split; [lia|exact Ha].
  Qed.
  Lemma mval_ext_x ds : forall (T : list nat -> K) xs ys, length xs = length ys ->
    (forall k i, k < length ds -> i < nth k ds 0%nat -> nth k xs (fun _ => 0) i = nth k ys (fun _ => 0) i) ->
    mval K ds T xs = mval K ds T ys.
  Proof.
    induction ds as [|d ds IH]; intros T xs ys L H; simpl; [reflexivity|].
    destruct xs as [|x xs], ys as [|y ys]; simpl in L; try discriminate; [reflexivity|].
    apply bsum_ext. intros i Hi. apply in_seq in Hi. f_equal.
    - apply (H 0%nat i); simpl; lia.
    - apply IH; [lia|]. intros k i' Hk Hi'. apply (H (S k) i'); simpl; [lia|exact Hi'].
  Qed.
  Lemma mval_sum {A} (l : list A) ds : forall (T : A -> list nat -> K) xs,
    mval K ds (fun a => bsum l (fun j => T j a)) xs = bsum l (fun j => mval K ds (T j) xs).
  Proof.
    induction ds as [|d ds IH]; intros T xs; simpl; [reflexivity|].
    destruct xs as [|x xs]; [symmetry; apply bsum_0; reflexivity|].
    rewrite bsum_swap. apply bsum_ext. intros i _. rewrite bsum_mul_l. f_equal.
    apply (IH (fun j a => T j (i :: a))).
  Qed.
  Lemma mval_scale c ds : forall (T : list nat -> K) xs,
    mval K ds (fun a => T a * c) xs = mval K ds T xs * c.
  Proof.
    induction ds as [|d ds IH]; intros T xs; simpl; [reflexivity|].
    destruct xs as [|x xs]; [ring|]. rewrite <- bsum_mul_r. apply bsum_ext. intros i _.
    rewrite (IH (fun a => T (i :: a))). ring.
  Qed.

  (** the product of the entries *)
  Fixpoint pprod (xs : list (nat -> K)) (a : list nat) : K :=
    match xs, a with
    | x :: xs', i :: a' => x i * pprod xs' a'
    | _, _ => 1
    end.
  Lemma mval_box ds : forall (T : list nat -> K) xs, length xs = length ds ->
    mval K ds T xs = bsum (box ds) (fun a => T a * pprod xs a).
  Proof.
    induction ds as [|d ds IH]; intros T xs L.
    - simpl. rewrite bsum_cons, bsum_nil. destruct xs; [|discriminate]. simpl. ring.
    - destruct xs as [|x xs]; [discriminate|]. rewrite bsum_box_cons. simpl. apply bsum_ext. intros i _.
      rewrite IH by (simpl in L; lia). rewrite <- bsum_mul_l. apply bsum_ext. intros a _. simpl. ring.
  Qed.
  Lemma pprod_nth xs : forall a, length a = length xs ->
    pprod xs a = bprod K (seq 0 (length xs)) (fun k => nth k xs (fun _ => 0) (nth k a 0%nat)).
  Proof.
    induction xs as [|x xs IH]; intros [|i a] L; simpl in *; try lia; [reflexivity|].
    rewrite IH by lia. rewrite <- seq_shift. unfold bprod. simpl. f_equal.
    generalize (seq 0 (length xs)). induction l; simpl; [reflexivity|]. rewrite IHl. reflexivity.
  Qed.
  (** products over lists *)
  Lemma bprod_ext {A} (l : list A) (f g : A -> K) : (forall a, In a l -> f a = g a) -> bprod K l f = bprod K l g.
  Proof. unfold bprod. induction l; simpl; intros H; [reflexivity|]. rewrite H, IHl; auto. Qed.
  Lemma bprod_mul {A} (l : list A) (f g : A -> K) : bprod K l (fun a => f a * g a) = bprod K l f * bprod K l g.
  Proof. unfold bprod. induction l; simpl; [ring|]. rewrite IHl. ring. Qed.
  Lemma bprod_1 {A} (l : list A) (f : A -> K) : (forall a, In a l -> f a = 1) -> bprod K l f = 1.
  Proof. unfold bprod. induction l; simpl; intros H; [reflexivity|]. rewrite H, IHl by auto. ring. Qed.
  Lemma bprod_pick (l : list nat) x (f : nat -> K) : NoDup l -> In x l ->
    bprod K l (fun a => if a =? x then f a else 1) = f x.
  Proof.
    induction l as [|a l IH]; intros N I; [destruct I|]. inversion N; subst.
    change (bprod K (a :: l) _) with ((if a =? x then f a else 1) * bprod K l (fun a => if a =? x then f a else 1)).
    destruct (Nat.eqb_spec a x) as [->|D].
    - rewrite (bprod_1 l); [ring|]. intros b Hb. destruct (Nat.eqb_spec b x); [subst; tauto|reflexivity].
    - destruct I as [E|I]; [congruence|]. rewrite IH by auto. ring.
  Qed.
  (** the factor the operands give to axis k *)
  Definition fac (ops : list (nat * (nat -> K))) (k : nat) : nat -> K :=
    match find (fun p => fst p =? k) ops with Some p => snd p | None => fun _ => 1 end.
  Lemma bprod_ops n (ops : list (nat * (nat -> K))) (a : list nat) :
    NoDup (map fst ops) -> (forall p, In p ops -> (fst p < n)%nat) ->
    bprod K ops (fun p => snd p (nth (fst p) a 0%nat)) = bprod K (seq 0 n) (fun k => fac ops k (nth k a 0%nat)).
  Proof.
    intros D L. induction ops as [|[k0 v] ops IH]; simpl in *.
    - symmetry. apply bprod_1. reflexivity.
    - inversion D as [|? ? D1 D2]; subst. change (bprod K ((k0, v) :: ops) _) with
        (v (nth k0 a 0%nat) * bprod K ops (fun p => snd p (nth (fst p) a 0%nat))).
      rewrite (IH D2) by auto.
      rewrite <- (bprod_pick (seq 0 n) k0 (fun k => v (nth k a 0%nat)) (seq_NoDup _ _))
        by (apply in_seq; specialize (L (k0, v) (or_introl eq_refl)); simpl in L; lia).
      rewrite <- bprod_mul. apply bprod_ext. intros k _. unfold fac. simpl.
      rewrite (Nat.eqb_sym k0 k). destruct (Nat.eqb_spec k k0) as [->|D0]; [|ring].
      destruct (find (fun p => fst p =? k0) ops) as [p|] eqn:E; [|simpl; ring].
      apply find_some in E. destruct E as [I E]. apply Nat.eqb_eq in E. exfalso. apply D1.
      rewrite <- E. apply in_map. exact I.
  Qed.

  (** ** einsum with one remaining axis: the value of the form with a unit vector there *)
  Lemma einsum_one ds (T : list nat -> K) ops r i :
    NoDup (map fst ops) -> (forall p, In p ops -> (fst p < length ds)%nat) -> (r < length ds)%nat ->
    ~ In r (map fst ops) -> (forall k, (k < length ds)%nat -> k <> r -> In k (map fst ops)) ->
    einsum K ds T ops [r] [i] =
      mval K ds T (map (fun k => if (k =? r)%nat then unit K i else fac ops k) (seq 0 (length ds))).
  Proof.
    intros D L Hr Nr Hc. unfold einsum. rewrite mval_box by now rewrite map_length, seq_length.
    apply bsum_ext. intros a Ha. pose proof (box_length ds a Ha) as La.
    rewrite pprod_nth by (rewrite map_length, seq_length; exact La). rewrite map_length, seq_length.
    rewrite (bprod_ops (length ds) ops a D L).
    transitivity (T a * (bprod K (seq 0 (length ds)) (fun k => (if (k =? r)%nat then (if (nth k a 0 =? i)%nat then 1 else 0) else 1) * fac ops k (nth k a 0%nat)))).
    - rewrite bprod_mul, (bprod_pick (seq 0 (length ds)) r (fun k => if (nth k a 0 =? i)%nat then 1 else 0) (seq_NoDup _ _))
        by (apply in_seq; lia).
      simpl. rewrite andb_true_r. destruct (nth r a 0 =? i)%nat; ring.
    - f_equal. apply bprod_ext. intros k Hk. apply in_seq in Hk.
      rewrite (nth_indep _ (fun _ => 0) ((fun k => if (k =? r)%nat then unit K i else fac ops k) 0%nat))
        by (rewrite map_length, seq_length; lia).
      rewrite (map_nth (fun k => if (k =? r)%nat then unit K i else fac ops k)), seq_nth by lia. simpl.
      destruct (Nat.eqb_spec k r) as [->|D0]; [|ring].
      unfold fac. destruct (find (fun p => (fst p =? r)%nat) ops) as [p|] eqn:E; [|unfold unit; ring].
      apply find_some in E. destruct E as [I E]. apply Nat.eqb_eq in E. exfalso. apply Nr. rewrite <- E. apply in_map, I.
  Qed.
  (** ** no remaining axis *)
  Lemma einsum_none ds (T : list nat -> K) ops :
    NoDup (map fst ops) -> (forall p, In p ops -> (fst p < length ds)%nat) ->
    einsum K ds T ops [] [] = mval K ds T (map (fac ops) (seq 0 (length ds))).
  Proof.
    intros D L. unfold einsum. rewrite mval_box by now rewrite map_length, seq_length.
    apply bsum_ext. intros a Ha. pose proof (box_length ds a Ha) as La. simpl.
    rewrite pprod_nth by (rewrite map_length, seq_length; exact La). rewrite map_length, seq_length.
    rewrite (bprod_ops (length ds) ops a D L). f_equal. apply bprod_ext. intros k Hk. apply in_seq in Hk.
    rewrite (nth_indep _ (fun _ => 0) (fac ops 0%nat)) by (rewrite map_length, seq_length; lia).
    rewrite (map_nth (fac ops)), seq_nth by lia. reflexivity.
  Qed.

  (** ** eliminating one axis *)
  Lemma elim_sum ds : forall k (T : list nat -> K) (c : nat -> K) o, (k < length ds)%nat -> In o (box (drop_at k ds)) ->
    bsum (box ds) (fun a => if nat_list_eqb (drop_at k a) o then T a * c (nth k a 0%nat) else 0) =
    bsum (seq 0 (nth k ds 0%nat)) (fun j => T (put_at k j o) * c j).
  Proof.
    induction ds as [|d ds IH]; intros k T c o H Ho; [simpl in H; lia|]. rewrite bsum_box_cons.
    destruct k as [|k]; simpl in Ho |- *.
    - apply bsum_ext. intros j _.
      rewrite (bsum_only K (box ds) o); [now rewrite nat_list_eqb_refl|apply box_NoDup|exact Ho|].
      intros a _ D. destruct (nat_list_eqb a o) eqn:E; [|reflexivity]. apply nat_list_eqb_iff in E. congruence.
    - destruct o as [|o0 o]; [exfalso; apply in_flat_map in Ho; destruct Ho as (? & _ & Ho); apply in_map_iff in Ho;
        destruct Ho as (? & E & _); discriminate|].
      apply box_cons_In in Ho. destruct Ho as [H0 Ho].
      rewrite (bsum_only K (seq 0 d) o0); [|apply seq_NoDup|apply in_seq; lia|].
      + simpl. rewrite Nat.eqb_refl. simpl. rewrite (IH k (fun a => T (o0 :: a)) c o) by (auto; simpl in H; lia). reflexivity.
      + intros i _ D. apply bsum_0. intros a _. simpl. destruct (Nat.eqb_spec i o0); [congruence|]. reflexivity.
  Qed.
  Lemma mval_put ds : forall k (T : list nat -> K) (c : nat -> K) xs, (k < length ds)%nat -> length xs = (length ds - 1)%nat ->
    mval K (drop_at k ds) (fun o => bsum (seq 0 (nth k ds 0%nat)) (fun j => T (put_at k j o) * c j)) xs =
    mval K ds T (put_at k c xs).
  Proof.
    induction ds as [|d ds IH]; intros k T c xs H L; [simpl in H; lia|]. destruct k as [|k]; simpl.
    - rewrite mval_sum. apply bsum_ext. intros j _. rewrite (mval_scale (c j) ds (fun o => T (j :: o))). ring.
    - simpl in H, L. destruct xs as [|x xs]; [simpl in L; lia|]. apply bsum_ext. intros i _. f_equal.
      apply (IH k (fun a => T (i :: a)) c xs); simpl in *; lia.
  Qed.
  Lemma einsum_elim ds k (T : list nat -> K) c xs : (k < length ds)%nat -> length xs = (length ds - 1)%nat ->
    mval K (drop_at k ds) (einsum K ds T [(k, c)] (drop_at k (seq 0 (length ds)))) xs = mval K ds T (put_at k c xs).
  Proof.
    intros H L. rewrite <- mval_put by assumption. apply mval_ext. intros o Ho.
    rewrite <- elim_sum by assumption. unfold einsum. apply bsum_ext. intros a Ha.
    rewrite <- (box_length ds a Ha). rewrite map_nth_seq_drop.
    destruct (nat_list_eqb (drop_at k a) o); [|reflexivity]. unfold bprod. simpl. ring.
  Qed.
End P.
