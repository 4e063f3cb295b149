(** Proofs about the augmentation dictionaries of LGMRES. *)
From Coq Require Import List Arith Bool Lia.
From Verif Require Import Prelude PreludeProofs RingSum KrylovModel.
Import ListNotations.

Section Aug.
  Variable V : Type.
  Variable matvec : V -> V.
  Notation dget := (dget V). Notation dhas := (dhas V). Notation ddel := (ddel V). Notation dput := (dput V).

  Lemma dhas_dget d k : dhas d k = match dget d k with Some _ => true | None => false end.
  Proof.
    unfold KrylovModel.dhas, KrylovModel.dget. induction d as [|[a v] d IH]; [reflexivity|]. cbn [existsb find fst].
    destruct (a =? k); [reflexivity|exact IH].
  Qed.
  Lemma dget_filter d k k' : dget (filter (fun p => negb (fst p =? k)) d) k' = if k' =? k then None else dget d k'.
  Proof.
    unfold KrylovModel.dget. induction d as [|[a v] d IH]; [destruct (k' =? k); reflexivity|]. cbn [filter fst].
    destruct (Nat.eqb_spec a k) as [->|Ha]; cbn [negb].
    - rewrite IH. cbn [find fst]. destruct (Nat.eqb_spec k' k) as [E|Hk]; [reflexivity|].
      destruct (Nat.eqb_spec k k'); [congruence|reflexivity].
    - cbn [find fst]. destruct (Nat.eqb_spec a k') as [E|Hk]; [|exact IH].
      destruct (Nat.eqb_spec k' k); [congruence|reflexivity].
  Qed.
  Lemma dget_put d k v k' : dget (dput d k v) k' = if k' =? k then Some v else dget d k'.
  Proof.
    unfold KrylovModel.dput. pose proof (dget_filter d k k') as F. unfold KrylovModel.dget in *. cbn [find fst snd].
    rewrite (Nat.eqb_sym k k'). destruct (k' =? k); [reflexivity|exact F].
  Qed.
  Lemma ddel_ok d k v : dget d k = Some v -> ddel d k = Some (filter (fun p => negb (fst p =? k)) d).
  Proof. intros H. unfold KrylovModel.ddel. rewrite dhas_dget, H. reflexivity. Qed.

  Variables (_m_ _k_ : nat) (ym : nat -> V).

  (** the contents after N iterations *)
  Definition ZZZ_ok (N : nat) (d : dict V) : Prop :=
    forall i, dget d i = if (i <? N) && ((_k_ =? 0) || (N <=? i + _k_)) then Some (ym i) else None.
  Definition AZ_ok (N : nat) (d : dict V) : Prop :=
    forall i, dget d i = if (S i <? N) && (N <=? S i + _k_) then Some (matvec (ym i)) else None.
  (** after the first product of iteration N *)
  Definition AZ_new (N : nat) (d : dict V) : Prop :=
    forall i, dget d i = if (i <? N) && (N <=? i + _k_) then Some (matvec (ym i)) else None.

  Lemma used_min N : used_k N _k_ = Nat.min N _k_.
  Proof. unfold used_k. destruct (Nat.ltb_spec N _k_); lia. Qed.
  Lemma used_sum N : used_m N _m_ _k_ = _m_ + _k_ - used_k N _k_ /\ used_k N _k_ <= _k_.
  Proof. unfold used_m, used_k. destruct (Nat.ltb_spec N _k_); lia. Qed.

  Lemma later_product N ZZZ AZ a : AZ_new N AZ -> a < used_k N _k_ ->
    aug_product V matvec N _m_ _k_ ZZZ AZ (used_m N _m_ _k_ + a) = Some (AZ, matvec (ym (N - 1 - a))).
  Proof.
    intros HA Ha. rewrite used_min in Ha. destruct (used_sum N) as (EM & LK). unfold aug_product.
    replace (N + used_m N _m_ _k_ - 1 - (used_m N _m_ _k_ + a)) with (N - 1 - a) by lia.
    rewrite dhas_dget, HA. destruct (Nat.ltb_spec (N - 1 - a) N); [|lia].
    destruct (Nat.leb_spec N (N - 1 - a + _k_)); [|lia]. cbn [andb]. rewrite HA.
    destruct (Nat.ltb_spec (N - 1 - a) N); [|lia].
    destruct (Nat.leb_spec N (N - 1 - a + _k_)); [|lia]. reflexivity.
  Qed.
  Lemma first_product N ZZZ AZ : ZZZ_ok N ZZZ -> AZ_ok N AZ -> 0 < used_k N _k_ ->
    exists AZ', aug_product V matvec N _m_ _k_ ZZZ AZ (used_m N _m_ _k_) = Some (AZ', matvec (ym (N - 1))) /\ AZ_new N AZ'.
  Proof.
    intros HZ HA Hk. rewrite used_min in Hk. unfold aug_product.
    replace (N + used_m N _m_ _k_ - 1 - used_m N _m_ _k_) with (N - 1) by lia.
    rewrite dhas_dget, HA. destruct (Nat.ltb_spec (S (N - 1)) N); [lia|]. cbn [andb].
    assert (GZ : dget ZZZ (N - 1) = Some (ym (N - 1))).
    { rewrite HZ. destruct (Nat.ltb_spec (N - 1) N); [|lia]. destruct (Nat.leb_spec N (N - 1 + _k_)); [|lia].
      rewrite orb_true_r. reflexivity. }
    destruct (Nat.ltb_spec _k_ N) as [L|L].
    - assert (GD : dget AZ (N - _k_ - 1) = Some (matvec (ym (N - _k_ - 1)))).
      { rewrite HA. destruct (Nat.ltb_spec (S (N - _k_ - 1)) N); [|lia].
        destruct (Nat.leb_spec N (S (N - _k_ - 1) + _k_)); [|lia]. reflexivity. }
      rewrite (ddel_ok _ _ _ GD), GZ, dget_put, Nat.eqb_refl. eexists. split; [reflexivity|].
      intros i. rewrite dget_put, dget_filter, HA.
      destruct (Nat.eqb_spec i (N - 1)) as [->|H1].
      + destruct (Nat.ltb_spec (N - 1) N); [|lia]. destruct (Nat.leb_spec N (N - 1 + _k_)); [|lia]. reflexivity.
      + destruct (Nat.eqb_spec i (N - _k_ - 1)) as [->|H2].
        * destruct (Nat.leb_spec N (N - _k_ - 1 + _k_)); [lia|]. rewrite andb_false_r. reflexivity.
        * destruct (Nat.ltb_spec (S i) N); destruct (Nat.ltb_spec i N); destruct (Nat.leb_spec N (S i + _k_));
            destruct (Nat.leb_spec N (i + _k_)); cbn [andb]; try reflexivity; lia.
    - rewrite GZ, dget_put, Nat.eqb_refl. eexists. split; [reflexivity|].
      intros i. rewrite dget_put, HA.
      destruct (Nat.eqb_spec i (N - 1)) as [->|H1].
      + destruct (Nat.ltb_spec (N - 1) N); [|lia]. destruct (Nat.leb_spec N (N - 1 + _k_)); [|lia]. reflexivity.
      + destruct (Nat.ltb_spec (S i) N); destruct (Nat.ltb_spec i N); destruct (Nat.leb_spec N (S i + _k_));
          destruct (Nat.leb_spec N (i + _k_)); cbn [andb]; try reflexivity; lia.
  Qed.
  Lemma later_products N ZZZ AZ : AZ_new N AZ -> forall c a, a + c <= used_k N _k_ ->
    aug_products V matvec N _m_ _k_ ZZZ AZ (seq (used_m N _m_ _k_ + a) c) =
      Some (AZ, map (fun b => matvec (ym (N - 1 - b))) (seq a c)).
  Proof.
    intros HA c. induction c; intros a L; [reflexivity|]. cbn [seq aug_products].
    rewrite (later_product N ZZZ AZ a HA) by lia.
    replace (S (used_m N _m_ _k_ + a)) with (used_m N _m_ _k_ + S a) by lia. rewrite IHc by lia. reflexivity.
  Qed.
  Lemma all_products N ZZZ AZ : ZZZ_ok N ZZZ -> AZ_ok N AZ ->
    exists AZ', aug_products V matvec N _m_ _k_ ZZZ AZ (seq (used_m N _m_ _k_) (_m_ + _k_ - used_m N _m_ _k_)) =
      Some (AZ', map (fun b => matvec (ym (N - 1 - b))) (seq 0 (used_k N _k_))) /\ AZ_new N AZ'.
  Proof.
    intros HZ HA. destruct (used_sum N) as (EM & LK).
    replace (_m_ + _k_ - used_m N _m_ _k_) with (used_k N _k_) by lia.
    destruct (used_k N _k_) as [|c] eqn:EK.
    - exists AZ. split; [reflexivity|]. intros i. rewrite HA. rewrite used_min in EK.
      destruct (Nat.ltb_spec (S i) N); destruct (Nat.ltb_spec i N); destruct (Nat.leb_spec N (S i + _k_));
            destruct (Nat.leb_spec N (i + _k_)); cbn [andb]; try reflexivity; lia.
    - destruct (first_product N ZZZ AZ HZ HA ltac:(lia)) as (AZ' & E & HN). exists AZ'. split; [|exact HN].
      cbn [seq aug_products]. rewrite E.
      replace (S (used_m N _m_ _k_)) with (used_m N _m_ _k_ + 1) by lia.
      rewrite (later_products N ZZZ AZ' HN c 1) by lia. cbn [map]. rewrite Nat.sub_0_r. reflexivity.
  Qed.
  Lemma dgets_ok N ZZZ : ZZZ_ok N ZZZ -> forall c a, a + c <= used_k N _k_ ->
    dgets V ZZZ (map (fun a => N - a - 1) (seq a c)) = Some (map (fun b => ym (N - 1 - b)) (seq a c)).
  Proof.
    intros HZ c. rewrite used_min. induction c; intros a L; [reflexivity|]. cbn [seq map dgets]. rewrite HZ.
    destruct (Nat.ltb_spec (N - a - 1) N); [|lia]. destruct (Nat.leb_spec N (N - a - 1 + _k_)); [|lia].
    rewrite orb_true_r. cbn [andb]. rewrite IHc by lia.
    replace (N - a - 1) with (N - 1 - a) by lia. reflexivity.
  Qed.

  Lemma iteration_ok N st : ZZZ_ok N (fst st) -> AZ_ok N (snd st) ->
    exists st', aug_iteration V matvec _m_ _k_ N (ym N) st =
      Some (map (fun b => matvec (ym (N - 1 - b))) (seq 0 (used_k N _k_)), map (fun b => ym (N - 1 - b)) (seq 0 (used_k N _k_)), st') /\
      ZZZ_ok (S N) (fst st') /\ AZ_ok (S N) (snd st').
  Proof.
    destruct st as [ZZZ AZ]. cbn [fst snd]. intros HZ HA. unfold aug_iteration.
    destruct (all_products N ZZZ AZ HZ HA) as (AZ' & -> & HN). rewrite (dgets_ok N ZZZ HZ) by lia.
    assert (HN' : AZ_ok (S N) AZ').
    { intros i. rewrite HN. destruct (Nat.ltb_spec i N); destruct (Nat.ltb_spec (S i) (S N));
        destruct (Nat.leb_spec N (i + _k_)); destruct (Nat.leb_spec (S N) (S i + _k_)); cbn [andb]; try reflexivity; lia. }
    destruct (Nat.leb_spec _k_ N) as [L|L]; destruct (Nat.ltb_spec 0 _k_) as [P|P]; cbn [andb].
    - assert (GD : dget ZZZ (N - _k_) = Some (ym (N - _k_))).
      { rewrite HZ. destruct (Nat.ltb_spec (N - _k_) N); [|lia]. destruct (Nat.leb_spec N (N - _k_ + _k_)); [|lia].
        rewrite orb_true_r. reflexivity. }
      rewrite (ddel_ok _ _ _ GD). eexists. split; [reflexivity|]. cbn [fst snd]. split; [|exact HN'].
      intros i. rewrite dget_put, dget_filter, HZ. destruct (Nat.eqb_spec _k_ 0); [lia|]. cbn [orb].
      destruct (Nat.eqb_spec i N) as [->|]; [destruct (Nat.ltb_spec N (S N)); [|lia]; destruct (Nat.leb_spec (S N) (N + _k_)); [reflexivity|lia]|].
      destruct (Nat.eqb_spec i (N - _k_)) as [->|].
      + destruct (Nat.leb_spec (S N) (N - _k_ + _k_)); [lia|]. rewrite andb_false_r. reflexivity.
      + destruct (Nat.ltb_spec i N); destruct (Nat.ltb_spec i (S N));
          destruct (Nat.leb_spec N (i + _k_)); destruct (Nat.leb_spec (S N) (i + _k_)); cbn [andb]; try reflexivity; lia.
    - eexists. split; [reflexivity|]. cbn [fst snd]. split; [|exact HN'].
      intros i. rewrite dget_put, HZ. destruct (Nat.eqb_spec _k_ 0); [|lia]. cbn [orb]. rewrite !andb_true_r.
      destruct (Nat.eqb_spec i N) as [->|]; [destruct (Nat.ltb_spec N (S N)); [reflexivity|lia]|].
      destruct (Nat.ltb_spec i N); destruct (Nat.ltb_spec i (S N)); try reflexivity; lia.
    - eexists. split; [reflexivity|]. cbn [fst snd]. split; [|exact HN'].
      intros i. rewrite dget_put, HZ. destruct (Nat.eqb_spec _k_ 0); [lia|]. cbn [orb].
      destruct (Nat.eqb_spec i N) as [->|]; [destruct (Nat.ltb_spec N (S N)); [|lia]; destruct (Nat.leb_spec (S N) (N + _k_)); [reflexivity|lia]|].
      destruct (Nat.ltb_spec i N); destruct (Nat.ltb_spec i (S N));
          destruct (Nat.leb_spec N (i + _k_)); destruct (Nat.leb_spec (S N) (i + _k_)); cbn [andb]; try reflexivity; lia.
    - lia.
  Qed.

  Lemma aug_ok N : exists st, aug_run V matvec _m_ _k_ ym N = Some st /\ ZZZ_ok N (fst st) /\ AZ_ok N (snd st).
  Proof.
    induction N.
    - exists ([], []). split; [reflexivity|]. split; intros i; reflexivity.
    - destruct IHN as (st & E & HZ & HA). cbn [aug_run]. rewrite E.
      destruct (iteration_ok N st HZ HA) as (st' & -> & HZ' & HA'). exists st'. split; [reflexivity|]. auto.
  Qed.
  Lemma aug_reads N : exists st st', aug_run V matvec _m_ _k_ ym N = Some st /\
    aug_iteration V matvec _m_ _k_ N (ym N) st =
      Some (map (fun b => matvec (ym (N - 1 - b))) (seq 0 (Nat.min N _k_)), map (fun b => ym (N - 1 - b)) (seq 0 (Nat.min N _k_)), st').
  Proof.
    destruct (aug_ok N) as (st & E & HZ & HA). destruct (iteration_ok N st HZ HA) as (st' & E' & _).
    exists st, st'. rewrite <- used_min. auto.
  Qed.
End Aug.
