(* Regions for the theorems about Typ3Model. *)
From Coq Require Import Reals Bool Lra.
From Verif Require Import TfiModel TfiSpec TfiProofs TfiProofs2 Typ3Model Typ3Spec Typ3Proofs.
Local Open Scope R_scope.

Definition brick : Corners := box (1, 2, 3) (3, 5, 9).
Lemma brick_below : below (1, 2, 3) (3, 5, 9).
Proof. intros [| |]; cbn [get]; lra. Qed.
Lemma brick_orth : classify3 true brick = t3Orth (2, 3, 6).
Proof.
  apply orth_ok. split; [reflexivity|]. exists (1, 2, 3), (3, 5, 9). split; [exact brick_below|]. split; [reflexivity|].
  unfold sizes. cbn [get]. repeat f_equal; lra.
Qed.
Lemma brick_element : classify_element3 (classify3 true brick) ((0, 1 / 2), (1 / 3, 1), (0, 1)) = t3Orth (1, 2, 6).
Proof.
  apply element_orth. split; [unfold sub_cube; cbn [fst snd]; lra|]. exists 2, 3, 6. split; [exact brick_orth|].
  cbn [fst snd]. repeat f_equal; lra.
Qed.
Definition brick2 : Corners := box (0, 0, 0) (2, 4, 12).
Lemma brick2_element : classify_element3 (classify3 true brick2) ((1 / 2, 1), (0, 1 / 2), (1 / 4, 3 / 4)) = t3Orth (1, 2, 6).
Proof.
  apply element_orth. split; [unfold sub_cube; cbn [fst snd]; lra|]. exists 2, 4, 12. split.
  - apply orth_ok. split; [reflexivity|]. exists (0, 0, 0), (2, 4, 12).
    split; [intros [| |]; cbn [get]; lra|]. split; [reflexivity|]. unfold sizes. cbn [get]. repeat f_equal; lra.
  - cbn [fst snd]. repeat f_equal; lra.
Qed.
(* a sheared cube: x = r + s, y = s, z = t *)
Definition sheared : Corners := mkCorners (0, 0, 0) (1, 0, 0) (1, 1, 0) (2, 1, 0) (0, 0, 1) (1, 0, 1) (1, 1, 1) (2, 1, 1).
Lemma sheared_map : forall r s t, tf_map (plane_sides sheared) cX r s t = r + s /\
  tf_map (plane_sides sheared) cY r s t = s /\ tf_map (plane_sides sheared) cZ r s t = t.
Proof.
  intros. rewrite !plane_trilinear. unfold trilinear, rsum, bools, sheared. cbn. repeat split; ring.
Qed.
Lemma sheared_raises : classify3 true sheared = t3Raise.
Proof.
  apply classify3_ok. split; [reflexivity|]. intros ([[x0 y0] z0] & [[x1 y1] z1] & _ & E).
  unfold sheared, box in E. cbn [get] in E. injection E. intros. lra.
Qed.
