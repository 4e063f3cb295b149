(** The operators of the wrappers. *)
From Coq Require Import Reals List Lra Lia.
From Verif Require Import FieldModel FieldSpec FieldProofs.
Import ListNotations.
Open Scope R_scope.

(** *** Success of a numerical derivative *)

Lemma numeric3_plain : forall c, plain3 c ->
  numeric3 c = Done (fun a => mk3 Method 5 (scipy_partial3 (call3 c) a)).
Proof.
  intros c [[K A]|[K A]]; unfold numeric3; rewrite K, A; reflexivity.
Qed.

Lemma numeric3_done : forall c d, numeric3 c = Done d -> plain3 c.
Proof.
  intros [k n f] d. unfold numeric3, plain3. cbn [kind3 args3 call3].
  destruct k; [| |discriminate].
  - destruct (Nat.eqb n 4) eqn:E; [|discriminate]. intros _.
    apply Nat.eqb_eq in E. left. auto.
  - destruct (Nat.eqb n 5) eqn:E; [|discriminate]. intros _.
    apply Nat.eqb_eq in E. right. auto.
Qed.

Lemma numeric2_plain : forall c, plain2 c ->
  numeric2 c = Done (fun a => mk2 Method 4 (scipy_partial2 (call2 c) a)).
Proof.
  intros c [[K A]|[[K A]|K]]; unfold numeric2; rewrite K;
    try rewrite A; reflexivity.
Qed.

Lemma numeric2_done : forall c d, numeric2 c = Done d -> plain2 c.
Proof.
  intros [k n f] d. unfold numeric2, plain2. cbn [kind2 args2 call2].
  destruct k; [| |auto].
  - destruct (Nat.eqb n 3) eqn:E; [|discriminate]. intros _.
    apply Nat.eqb_eq in E. left. auto.
  - destruct (Nat.eqb n 4) eqn:E; [|discriminate]. intros _.
    apply Nat.eqb_eq in E. right. left. auto.
Qed.

(** *** Differences along two axes commute *)

Lemma diff3_same : forall a f g, same3 f g -> same3 (diff3 a f) (diff3 a g).
Proof.
  intros a f g H t x y z. unfold diff3, central.
  destruct a; cbn [line3 coordinate3]; rewrite !H; reflexivity.
Qed.

Lemma diff2_same : forall a f g, same2 f g -> same2 (diff2 a f) (diff2 a g).
Proof.
  intros a f g H t x y. unfold diff2, central.
  destruct a; cbn [line2 coordinate2]; rewrite !H; reflexivity.
Qed.

Lemma diff3_comm : forall a b f,
  same3 (diff3 a (diff3 b f)) (diff3 b (diff3 a f)).
Proof.
  intros a b f t x y z. unfold diff3, central.
  assert (P := millionth_pos).
  destruct a, b; cbn [line3 coordinate3]; try reflexivity; field; lra.
Qed.

Lemma diff2_comm : forall a b f,
  same2 (diff2 a (diff2 b f)) (diff2 b (diff2 a f)).
Proof.
  intros a b f t x y. unfold diff2, central.
  assert (P := millionth_pos).
  destruct a, b; cbn [line2 coordinate2]; try reflexivity; field; lra.
Qed.

(** *** 3D *)

Lemma partial3_plain : forall f a, plain3 (mk3 Method 5 (scipy_partial3 f a)).
Proof. intros f a. right. split; reflexivity. Qed.

Lemma gradient3_gives : forall s, plain3 s ->
  exists v, gradient3 s = Done v /\ plainv3 v /\
    same3 (call3 (v0 v)) (diff3 AX (call3 s)) /\
    same3 (call3 (v1 v)) (diff3 AY (call3 s)) /\
    same3 (call3 (v2 v)) (diff3 AZ (call3 s)).
Proof.
  intros s H. unfold gradient3. rewrite (numeric3_plain s H).
  cbn [andthen]. eexists. split; [reflexivity|]. cbn [v0 v1 v2 call3].
  split; [repeat split; apply partial3_plain|].
  repeat split; apply partial3_diff.
Qed.

Lemma stime3_gives : forall s, plain3 s ->
  exists c, stime3 s = Done c /\ plain3 c /\
    same3 (call3 c) (diff3 AT (call3 s)).
Proof.
  intros s H. unfold stime3. rewrite (numeric3_plain s H).
  cbn [andthen]. eexists. split; [reflexivity|].
  split; [apply partial3_plain|]. apply partial3_diff.
Qed.

Lemma vtime3_gives : forall v, plainv3 v ->
  exists w, vtime3 v = Done w /\ plainv3 w /\
    same3 (call3 (v0 w)) (diff3 AT (call3 (v0 v))) /\
    same3 (call3 (v1 w)) (diff3 AT (call3 (v1 v))) /\
    same3 (call3 (v2 w)) (diff3 AT (call3 (v2 v))).
Proof.
  intros v [H0 [H1 H2]]. unfold vtime3.
  rewrite (numeric3_plain _ H0), (numeric3_plain _ H1),
    (numeric3_plain _ H2).
  cbn [andthen]. eexists. split; [reflexivity|]. cbn [v0 v1 v2 call3].
  split; [repeat split; apply partial3_plain|].
  repeat split; apply partial3_diff.
Qed.

Lemma divergence3_gives : forall v, plainv3 v ->
  gives3 (divergence3 v) (fun t x y z =>
    diff3 AX (call3 (v0 v)) t x y z + diff3 AY (call3 (v1 v)) t x y z
    + diff3 AZ (call3 (v2 v)) t x y z).
Proof.
  intros v [H0 [H1 H2]]. unfold divergence3.
  rewrite (numeric3_plain _ H0), (numeric3_plain _ H1),
    (numeric3_plain _ H2).
  cbn [andthen]. eexists. split; [reflexivity|].
  intros t x y z. cbn [sum3 instance3 call3]. rewrite !partial3_diff.
  reflexivity.
Qed.

Lemma curl3_gives : forall v, plainv3 v ->
  givesv3 (curl3 v)
    (fun t x y z => diff3 AY (call3 (v2 v)) t x y z
                    - diff3 AZ (call3 (v1 v)) t x y z)
    (fun t x y z => diff3 AZ (call3 (v0 v)) t x y z
                    - diff3 AX (call3 (v2 v)) t x y z)
    (fun t x y z => diff3 AX (call3 (v1 v)) t x y z
                    - diff3 AY (call3 (v0 v)) t x y z).
Proof.
  intros v [H0 [H1 H2]]. unfold curl3.
  rewrite (numeric3_plain _ H0), (numeric3_plain _ H1),
    (numeric3_plain _ H2).
  cbn [andthen]. eexists. split; [reflexivity|].
  repeat split; intros t x y z; cbn [v0 v1 v2 sub3 instance3 call3];
    rewrite !partial3_diff; reflexivity.
Qed.

Lemma sconvection3_gives : forall s u, plain3 s ->
  gives3 (sconvection3 s u) (along3 u (call3 s)).
Proof.
  intros s u H. unfold sconvection3. rewrite (numeric3_plain s H).
  cbn [andthen]. eexists. split; [reflexivity|].
  intros t x y z. unfold along3. cbn [sum3 mul3 instance3 call3].
  rewrite !partial3_diff. reflexivity.
Qed.

Lemma vconvection3_gives : forall v u, plainv3 v ->
  givesv3 (vconvection3 v u) (along3 u (call3 (v0 v)))
    (along3 u (call3 (v1 v))) (along3 u (call3 (v2 v))).
Proof.
  intros v u [H0 [H1 H2]]. unfold vconvection3.
  rewrite (numeric3_plain _ H0), (numeric3_plain _ H1),
    (numeric3_plain _ H2).
  cbn [andthen]. eexists. split; [reflexivity|].
  repeat split; intros t x y z; unfold along3;
    cbn [v0 v1 v2 sum3 mul3 instance3 call3];
    rewrite !partial3_diff; reflexivity.
Qed.

(** The curl of a gradient is computed and vanishes. *)
Lemma curl_gradient3 : forall s, plain3 s ->
  exists g, gradient3 s = Done g /\
    givesv3 (curl3 g) (fun _ _ _ _ => 0) (fun _ _ _ _ => 0)
      (fun _ _ _ _ => 0).
Proof.
  intros s H. destruct (gradient3_gives s H) as [g [E [P [E0 [E1 E2]]]]].
  exists g. split; [exact E|].
  destruct (curl3_gives g P) as [c [Ec [C0 [C1 C2]]]].
  exists c. split; [exact Ec|].
  repeat split; intros t x y z.
  - rewrite C0, (diff3_same AY _ _ E2), (diff3_same AZ _ _ E1),
      (diff3_comm AY AZ). ring.
  - rewrite C1, (diff3_same AZ _ _ E0), (diff3_same AX _ _ E2),
      (diff3_comm AZ AX). ring.
  - rewrite C2, (diff3_same AX _ _ E1), (diff3_same AY _ _ E0),
      (diff3_comm AX AY). ring.
Qed.

(** The time derivative of a gradient is the gradient of the time
    derivative. *)
Lemma time_gradient3 : forall s, plain3 s ->
  exists g d w, gradient3 s = Done g /\ stime3 s = Done d /\
    gradient3 d = Done w /\
    givesv3 (vtime3 g) (call3 (v0 w)) (call3 (v1 w)) (call3 (v2 w)).
Proof.
  intros s H. destruct (gradient3_gives s H) as [g [E [P [E0 [E1 E2]]]]].
  destruct (stime3_gives s H) as [d [Ed [Pd Fd]]].
  destruct (gradient3_gives d Pd) as [w [Ew [Pw [W0 [W1 W2]]]]].
  destruct (vtime3_gives g P) as [q [Eq [Pq [Q0 [Q1 Q2]]]]].
  exists g, d, w. repeat split; try assumption.
  exists q. split; [exact Eq|].
  repeat split; intros t x y z.
  - rewrite Q0, W0, (diff3_same AT _ _ E0), (diff3_same AX _ _ Fd).
    apply diff3_comm.
  - rewrite Q1, W1, (diff3_same AT _ _ E1), (diff3_same AY _ _ Fd).
    apply diff3_comm.
  - rewrite Q2, W2, (diff3_same AT _ _ E2), (diff3_same AZ _ _ Fd).
    apply diff3_comm.
Qed.

(** *** What cannot be differentiated again *)

Definition never3 (c : callable3) : Prop :=
  kind3 c = Instance.

Lemma numeric3_never : forall c, never3 c ->
  numeric3 c = Raised NotImplementedError.
Proof. intros c H. unfold numeric3. rewrite H. reflexivity. Qed.

Definition neverv3 (v : vector3) : Prop :=
  never3 (v0 v) /\ never3 (v1 v) /\ never3 (v2 v).

Lemma never_scalar3 : forall s, never3 s ->
  gradient3 s = Raised NotImplementedError /\
  stime3 s = Raised NotImplementedError /\
  (forall u, sconvection3 s u = Raised NotImplementedError).
Proof.
  intros s H. unfold gradient3, stime3, sconvection3.
  rewrite (numeric3_never s H). repeat split; reflexivity.
Qed.

Lemma never_vector3 : forall v, neverv3 v ->
  divergence3 v = Raised NotImplementedError /\
  curl3 v = Raised NotImplementedError /\
  vtime3 v = Raised NotImplementedError /\
  (forall u, vconvection3 v u = Raised NotImplementedError).
Proof.
  intros v [H0 [H1 H2]]. unfold divergence3, curl3, vtime3, vconvection3.
  rewrite (numeric3_never _ H0), (numeric3_never _ H2).
  repeat split; reflexivity.
Qed.

Lemma curl3_never : forall v w, curl3 v = Done w -> neverv3 w.
Proof.
  intros v w. unfold curl3, andthen.
  destruct (numeric3 (v2 v)); [|discriminate].
  destruct (numeric3 (v0 v)); [|discriminate].
  destruct (numeric3 (v1 v)); [|discriminate].
  intros E. injection E as <-. repeat split.
Qed.

Lemma divergence3_never : forall v c, divergence3 v = Done c -> never3 c.
Proof.
  intros v c. unfold divergence3, andthen.
  destruct (numeric3 (v0 v)); [|discriminate].
  destruct (numeric3 (v1 v)); [|discriminate].
  destruct (numeric3 (v2 v)); [|discriminate].
  intros E. injection E as <-. reflexivity.
Qed.

(** The operators succeed only on plain functions. *)
Lemma gradient3_iff : forall s,
  (exists v, gradient3 s = Done v) <-> plain3 s.
Proof.
  intros s. split.
  - intros [v H]. unfold gradient3 in H.
    destruct (numeric3 s) eqn:E; [|discriminate].
    exact (numeric3_done _ _ E).
  - intros H. destruct (gradient3_gives s H) as [v [E _]]. eauto.
Qed.

Lemma divergence3_iff : forall v,
  (exists c, divergence3 v = Done c) <-> plainv3 v.
Proof.
  intros v. split.
  - intros [c H]. unfold divergence3, andthen in H.
    destruct (numeric3 (v0 v)) eqn:E0; [|discriminate].
    destruct (numeric3 (v1 v)) eqn:E1; [|discriminate].
    destruct (numeric3 (v2 v)) eqn:E2; [|discriminate].
    repeat split; eapply numeric3_done; eassumption.
  - intros H. destruct (divergence3_gives v H) as [c [E _]]. eauto.
Qed.

Lemma curl3_iff : forall v,
  (exists c, curl3 v = Done c) <-> plainv3 v.
Proof.
  intros v. split.
  - intros [c H]. unfold curl3, andthen in H.
    destruct (numeric3 (v2 v)) eqn:E2; [|discriminate].
    destruct (numeric3 (v0 v)) eqn:E0; [|discriminate].
    destruct (numeric3 (v1 v)) eqn:E1; [|discriminate].
    repeat split; eapply numeric3_done; eassumption.
  - intros H. destruct (curl3_gives v H) as [c [E _]]. eauto.
Qed.

(** *** 2D *)

Lemma partial2_plain : forall f a, plain2 (mk2 Method 4 (scipy_partial2 f a)).
Proof. intros f a. right. left. split; reflexivity. Qed.

Lemma instance2_plain : forall f, plain2 (instance2 f).
Proof. intros f. right. right. reflexivity. Qed.

Lemma gradient2_gives : forall s, plain2 s ->
  exists v, gradient2 s = Done v /\ plainv2 v /\
    same2 (call2 (w0 v)) (diff2 BX (call2 s)) /\
    same2 (call2 (w1 v)) (diff2 BY (call2 s)).
Proof.
  intros s H. unfold gradient2. rewrite (numeric2_plain s H).
  cbn [andthen]. eexists. split; [reflexivity|]. cbn [w0 w1 call2].
  split; [split; apply partial2_plain|].
  split; apply partial2_diff.
Qed.

Lemma stime2_gives : forall s, plain2 s ->
  exists c, stime2 s = Done c /\ plain2 c /\
    same2 (call2 c) (diff2 BT (call2 s)).
Proof.
  intros s H. unfold stime2. rewrite (numeric2_plain s H).
  cbn [andthen]. eexists. split; [reflexivity|].
  split; [apply partial2_plain|]. apply partial2_diff.
Qed.

Lemma vtime2_gives : forall v, plainv2 v ->
  exists w, vtime2 v = Done w /\ plainv2 w /\
    same2 (call2 (w0 w)) (diff2 BT (call2 (w0 v))) /\
    same2 (call2 (w1 w)) (diff2 BT (call2 (w1 v))).
Proof.
  intros v [H0 H1]. unfold vtime2.
  rewrite (numeric2_plain _ H0), (numeric2_plain _ H1).
  cbn [andthen]. eexists. split; [reflexivity|]. cbn [w0 w1 call2].
  split; [split; apply partial2_plain|].
  split; apply partial2_diff.
Qed.

Lemma curl2_gives : forall s, plain2 s ->
  exists v, curl2 s = Done v /\ plainv2 v /\
    same2 (call2 (w0 v)) (diff2 BY (call2 s)) /\
    same2 (call2 (w1 v)) (fun t x y => - diff2 BX (call2 s) t x y).
Proof.
  intros s H. unfold curl2. rewrite (numeric2_plain s H).
  cbn [andthen]. eexists. split; [reflexivity|]. cbn [w0 w1 call2].
  split; [split; [apply partial2_plain|apply instance2_plain]|].
  split; [apply partial2_diff|].
  intros t x y. cbn [wrapped2 neg2 instance2 call2].
  rewrite partial2_diff. reflexivity.
Qed.

Lemma divergence2_gives : forall v, plainv2 v ->
  exists c, divergence2 v = Done c /\ plain2 c /\
    same2 (call2 c) (fun t x y =>
      diff2 BX (call2 (w0 v)) t x y + diff2 BY (call2 (w1 v)) t x y).
Proof.
  intros v [H0 H1]. unfold divergence2.
  rewrite (numeric2_plain _ H0), (numeric2_plain _ H1).
  cbn [andthen]. eexists. split; [reflexivity|].
  split; [apply instance2_plain|].
  intros t x y. cbn [add2 instance2 call2]. rewrite !partial2_diff.
  reflexivity.
Qed.

Lemma rot2_gives : forall v, plainv2 v ->
  exists c, rot2 v = Done c /\ plain2 c /\
    same2 (call2 c) (fun t x y =>
      diff2 BX (call2 (w1 v)) t x y - diff2 BY (call2 (w0 v)) t x y).
Proof.
  intros v [H0 H1]. unfold rot2.
  rewrite (numeric2_plain _ H0), (numeric2_plain _ H1).
  cbn [andthen]. eexists. split; [reflexivity|].
  split; [apply instance2_plain|].
  intros t x y. cbn [sub2 instance2 call2]. rewrite !partial2_diff.
  reflexivity.
Qed.

Lemma sconvection2_gives : forall s u, plain2 s ->
  exists c, sconvection2 s u = Done c /\ plain2 c /\
    same2 (call2 c) (along2 u (call2 s)).
Proof.
  intros s u H. unfold sconvection2. rewrite (numeric2_plain s H).
  cbn [andthen]. eexists. split; [reflexivity|].
  split; [apply instance2_plain|].
  intros t x y. unfold along2. cbn [add2 mul2 instance2 call2].
  rewrite !partial2_diff. reflexivity.
Qed.

Lemma vconvection2_gives : forall v u, plainv2 v ->
  exists c, vconvection2 v u = Done c /\ plainv2 c /\
    same2 (call2 (w0 c)) (along2 u (call2 (w0 v))) /\
    same2 (call2 (w1 c)) (along2 u (call2 (w1 v))).
Proof.
  intros v u [H0 H1]. unfold vconvection2.
  rewrite (numeric2_plain _ H0), (numeric2_plain _ H1).
  cbn [andthen]. eexists. split; [reflexivity|].
  split; [split; apply instance2_plain|].
  split; intros t x y; unfold along2;
    cbn [w0 w1 add2 mul2 instance2 call2];
    rewrite !partial2_diff; reflexivity.
Qed.

Lemma rot_gradient2 : forall s, plain2 s ->
  exists g, gradient2 s = Done g /\ gives2 (rot2 g) (fun _ _ _ => 0).
Proof.
  intros s H. destruct (gradient2_gives s H) as [g [E [P [E0 E1]]]].
  exists g. split; [exact E|].
  destruct (rot2_gives g P) as [c [Ec [_ C]]].
  exists c. split; [exact Ec|]. intros t x y.
  rewrite C, (diff2_same BX _ _ E1), (diff2_same BY _ _ E0),
    (diff2_comm BX BY). ring.
Qed.

Lemma diff2_opp : forall a f,
  same2 (diff2 a (fun t x y => - f t x y)) (fun t x y => - diff2 a f t x y).
Proof.
  intros a f t x y. unfold diff2, central. assert (P := millionth_pos).
  destruct a; cbn [line2 coordinate2]; field; lra.
Qed.

Lemma divergence_curl2 : forall s, plain2 s ->
  exists g, curl2 s = Done g /\ gives2 (divergence2 g) (fun _ _ _ => 0).
Proof.
  intros s H. destruct (curl2_gives s H) as [g [E [P [E0 E1]]]].
  exists g. split; [exact E|].
  destruct (divergence2_gives g P) as [c [Ec [_ C]]].
  exists c. split; [exact Ec|]. intros t x y.
  rewrite C, (diff2_same BX _ _ E0), (diff2_same BY _ _ E1),
    (diff2_opp BY), (diff2_comm BX BY). ring.
Qed.

(** The rotation of a curl is minus the divergence of the gradient. *)
Lemma rot_curl2 : forall s, plain2 s ->
  exists c r g l, curl2 s = Done c /\ rot2 c = Done r /\
    gradient2 s = Done g /\ divergence2 g = Done l /\
    same2 (call2 r) (fun t x y => - call2 l t x y).
Proof.
  intros s H. destruct (curl2_gives s H) as [c [Ec [Pc [C0 C1]]]].
  destruct (gradient2_gives s H) as [g [Eg [Pg [G0 G1]]]].
  destruct (rot2_gives c Pc) as [r [Er [_ Fr]]].
  destruct (divergence2_gives g Pg) as [l [El [_ Fl]]].
  exists c, r, g, l. repeat split; try assumption.
  intros t x y.
  rewrite Fr, Fl, (diff2_same BX _ _ C1), (diff2_same BY _ _ C0),
    (diff2_same BX _ _ G0), (diff2_same BY _ _ G1), (diff2_opp BX). ring.
Qed.
