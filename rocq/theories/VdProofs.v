(* Strain, rotation and the criteria. *)
From Coq Require Import Reals List Lia Lra Arith ZArith Psatz.
From Verif Require Import TfiModel TfiSpec CtModel CtSpec VdModel VdSpec.
Import ListNotations.
Open Scope R_scope.
Ltac mats := unfold prod3, csum, ent, mrow, TfiModel.get in *.
Theorem split_ok G : splits G (S_of G) (O_of G).
Proof.
  destruct G as [[[[a b] c] [[d e] f]] [[g h] i]]. split; [|split]; intros x y; destruct x, y; mats; cbn [S_of O_of]; field.
Qed.
Theorem split_unique G S O : splits G S O -> S = S_of G /\ O = O_of G.
Proof.
  destruct G as [[[[a b] c] [[d e] f]] [[g h] i]], S as [[[[s0 s1] s2] [[s3 s4] s5]] [[s6 s7] s8]], O as [[[[o0 o1] o2] [[o3 o4] o5]] [[o6 o7] o8]].
  intros (HS & HO & HG).
  assert (S1 := HS cX cY). assert (S2 := HS cX cZ). assert (S3 := HS cY cZ).
  assert (O0 := HO cX cX). assert (O1 := HO cX cY). assert (O2 := HO cX cZ). assert (O3 := HO cY cY). assert (O4 := HO cY cZ). assert (O5 := HO cZ cZ).
  assert (G0 := HG cX cX). assert (G1 := HG cX cY). assert (G2 := HG cX cZ). assert (G3 := HG cY cX). assert (G4 := HG cY cY). assert (G5 := HG cY cZ).
  assert (G6 := HG cZ cX). assert (G7 := HG cZ cY). assert (G8 := HG cZ cZ). clear HS HO HG. mats. cbn [S_of O_of]. split; repeat f_equal; lra.
Qed.
Theorem so_symmetric G : symm3 (so_of G).
Proof.
  destruct G as [[[[a b] c] [[d e] f]] [[g h] i]]. intros x y. destruct x, y; unfold so_of; cbn [S_of O_of]; mats; ring.
Qed.
Lemma eigen_trace M a b c : eigen3 M (a, b, c) -> a + b + c = csum (fun i => ent M i i).
Proof.
  destruct M as [[[[m0 m1] m2] [[m3 m4] m5]] [[m6 m7] m8]]. intros H. assert (H1 := H 1). assert (H0 := H 0). assert (H2 := H (-1)). cbv beta iota in H0, H1, H2.
  replace (a + b + c) with (- (1 / 2) * ((1 - a) * (1 - b) * (1 - c) + (-1 - a) * (-1 - b) * (-1 - c) - 2 * ((0 - a) * (0 - b) * (0 - c)))) by field.
  rewrite <- H0, <- H1, <- H2. unfold det3. mats. field.
Qed.
Theorem Q_value G e : eigen3 (so_of G) e -> Q_of e = - (1 / 2) * csum (fun i => ent G i i ^ 2).
Proof.
  destruct e as [[a b] c]. intros H. unfold Q_of. rewrite (eigen_trace _ _ _ _ H). destruct G as [[[[g0 g1] g2] [[g3 g4] g5]] [[g6 g7] g8]].
  unfold so_of. cbn [S_of O_of]. mats. field.
Qed.
Theorem Q_never_positive G e : eigen3 (so_of G) e -> Q_of e <= 0.
Proof.
  intros H. rewrite (Q_value G e H). unfold csum. assert (A := pow2_ge_0 (ent G cX cX)). assert (B := pow2_ge_0 (ent G cY cY)). assert (C := pow2_ge_0 (ent G cZ cZ)). lra.
Qed.
Theorem Q_right_iff G e : eigen3 (so_of G) e -> (Q_of e = Q_crit G <-> ent G cX cY * ent G cY cX + ent G cX cZ * ent G cZ cX + ent G cY cZ * ent G cZ cY = 0).
Proof. intros H. rewrite (Q_value G e H). unfold Q_crit, csum. split; intros E; nra. Qed.
(* the criterion is half of the negative trace of S^2 + O^2 *)
Theorem crit_trace G M e : squares (S_of G) (O_of G) M -> eigen3 M e -> Q_of e = Q_crit G.
Proof.
  destruct e as [[a b] c]. intros HM H. unfold Q_of. rewrite (eigen_trace _ _ _ _ H). unfold csum at 1. rewrite !HM. destruct G as [[[[g0 g1] g2] [[g3 g4] g5]] [[g6 g7] g8]].
  unfold Q_crit. cbn [S_of O_of]. mats. field.
Qed.
Theorem diagonal_right a b c : squares (S_of ((a, 0, 0), (0, b, 0), (0, 0, c))) (O_of ((a, 0, 0), (0, b, 0), (0, 0, c))) (so_of ((a, 0, 0), (0, b, 0), (0, 0, c))).
Proof. intros x y. destruct x, y; unfold so_of; cbn [S_of O_of]; mats; field. Qed.
Theorem lambda2_second e : second_of e (lambda2_of e).
Proof.
  destruct e as [[a b] c]. unfold second_of, lambda2_of, rsort. cbn [fold_right rinsert].
  destruct (Rle_dec b c); cbn [rinsert]; [destruct (Rle_dec a b)|destruct (Rle_dec a c)]; cbn [nth].
  - exists a, c. split; [lra|]. intros; ring.
  - destruct (Rle_dec a c); cbn [nth]; [exists b, c|exists b, a]; (split; [lra|]); intros; ring.
  - exists a, b. split; [lra|]. intros; ring.
  - destruct (Rle_dec a b); cbn [nth]; [exists c, b|exists c, a]; (split; [lra|]); intros; ring.
Qed.
(* rotation about the third axis with unit angular velocity *)
Definition spin : mat3 := ((0, -1, 0), (1, 0, 0), (0, 0, 0)).
Lemma spin_so : eigen3 (so_of spin) (1, -1, 0).
Proof. intros t. unfold so_of, spin. cbn [S_of O_of]. unfold det3. field. Qed.
Lemma spin_squares : squares (S_of spin) (O_of spin) ((-1, 0, 0), (0, -1, 0), (0, 0, 0)).
Proof. intros x y. destruct x, y; unfold spin; cbn [S_of O_of]; mats; field. Qed.
Lemma spin_eigen : eigen3 ((-1, 0, 0), (0, -1, 0), (0, 0, 0)) (-1, 0, -1).
Proof. intros t. unfold det3. ring. Qed.
Theorem Q_refuted : exists G e, eigen3 (so_of G) e /\ Q_crit G > 0 /\ Q_of e = 0.
Proof.
  exists spin, (1, -1, 0). split; [exact spin_so|]. unfold Q_crit, Q_of, spin. mats. split; lra.
Qed.
Theorem lambda2_refuted : exists G M e e', eigen3 (so_of G) e /\ squares (S_of G) (O_of G) M /\ eigen3 M e' /\ lambda2_of e' < 0 /\ lambda2_of e = 0.
Proof.
  exists spin, ((-1, 0, 0), (0, -1, 0), (0, 0, 0)), (1, -1, 0), (-1, 0, -1). split; [exact spin_so|]. split; [exact spin_squares|]. split; [exact spin_eigen|].
  unfold lambda2_of, rsort. cbn [fold_right rinsert]. repeat match goal with |- context [Rle_dec ?a ?b] => destruct (Rle_dec a b); try lra; cbn [rinsert] end; cbn [nth]; split; lra.
Qed.
