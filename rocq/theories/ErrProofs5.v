(* The greatest error of forms in 3D, its nodes, and errors with derivatives. *)
From Coq Require Import Reals List Lia Lra Arith ZArith Bool Permutation.
From Verif Require Import TfiModel CtModel CtSpec DiscModel DiscSpec DiscProofs2 ReconModel ReconSpec ReconProofs ReconProofs5 TreconModel Rec2Model ErrModel ErrSpec ErrProofs ErrProofs2 ErrProofs3 ErrProofs4.
Import ListNotations.
Open Scope R_scope.

Lemma points_in m x y z : In (x, y, z) (points m) <-> In x (mx m) /\ In y (my m) /\ In z (mz m).
Proof.
  unfold points, mesh3. rewrite in_flat_map. split.
  - intros (c & C & H). apply in_flat_map in H as (b & B & H). apply in_map_iff in H as (a & E & A). injection E as <- <- <-. auto.
  - intros (A & B & C). exists z. split; [exact C|]. apply in_flat_map. exists y. split; [exact B|]. apply in_map_iff. exists x. split; [reflexivity|exact A].
Qed.
Lemma points_has_points m : has_points m -> points m <> [].
Proof.
  intros (A & B & C) E. destruct (mx m) as [|x lx] eqn:Ex; [congruence|]. destruct (my m) as [|y ly] eqn:Ey; [congruence|]. destruct (mz m) as [|z lz] eqn:Ez; [congruence|].
  assert (I : In (x, y, z) (points m)) by (apply points_in; rewrite Ex, Ey, Ez; cbn; auto). rewrite E in I. destruct I.
Qed.
Theorem err3_inf_ok k s m fs cores v : has_points m -> length fs = num3 k -> concat cores <> [] -> (forall e, In e (concat cores) -> good3 k s m e) ->
  (forall e, In e (concat cores) -> on_grid m (fun x y z => fields3 k s (f3_c e) (f3_J e) x y z (v e x y z))) ->
  exists g, err3_inf k s m fs cores = Some g /\ greatest (a_diff3 m fs (concat cores) v) g.
Proof.
  intros NE L C G H. pose proof (points_has_points m NE) as NP.
  assert (RP : forall e, In e (concat cores) -> represents (points m) (vals3 k s m e) (at_pt (v e))) by (intros e I; apply vals3_rows; [apply G|apply H]; exact I).
  assert (SH : forall e, In e (concat (map (map (eel3 k s m)) cores)) -> shaped (num3 k) e /\ xyz e <> []).
  { intros e' I'. rewrite concat_maps in I'. apply in_map_iff in I' as (e & <- & I). destruct (RP e I) as (gs & E & V). unfold shaped, eel3. cbn [vals xyz dets]. rewrite !map_length. split; [split; [|split; [|reflexivity]]|].
    - destruct (points m) as [|q l] eqn:EP; [congruence|]. rewrite E, map_length. specialize (V q (or_introl eq_refl)). rewrite <- (map_length (fun g => g q) gs), V.
      assert (Iq : In q (points m)) by (rewrite EP; left; reflexivity). pose proof (in_points m q _ (H e I) Iq) as F. destruct q as [[x y] z]. cbn [at_pt] in *. exact (fields3_len _ _ _ _ _ _ _ _ F).
    - intros w Iw. rewrite E in Iw. apply in_map_iff in Iw as (g & <- & _). apply map_length.
    - intros Q. apply map_eq_nil in Q. congruence. }
  unfold err3_inf. destruct (err_inf_ok (num3 k) (map at_pt fs) ltac:(destruct k; cbn; lia) ltac:(rewrite map_length; exact L) (map (map (eel3 k s m)) cores)) as (g & E & P & M).
  - rewrite concat_maps. intros Q. apply map_eq_nil in Q. congruence.
  - exact SH.
  - exists g. split; [exact E|]. split.
    + destruct P as (e' & j & i & w & f & a & x' & I' & Ew & Ef & Ea & Ex & ->). rewrite concat_maps in I'. apply in_map_iff in I' as (e & <- & I). unfold eel3 in Ew, Ex. cbn [vals xyz] in Ew, Ex.
      destruct (RP e I) as (gs & EG & V). rewrite EG, nth_error_map in Ew. destruct (nth_error gs j) as [g0|] eqn:Eg; [|discriminate]. injection Ew as <-.
      rewrite nth_error_map in Ea, Ex, Ef. destruct (nth_error (points m) i) as [q|] eqn:Eq; [|discriminate]. injection Ea as <-. injection Ex as <-. destruct (nth_error fs j) as [f0|] eqn:Ef0; [|discriminate]. injection Ef as <-.
      pose proof (nth_error_In _ _ Eq) as Iq. pose proof (V q Iq) as Vq. destruct q as [[x y] z]. pose proof (proj1 (points_in m x y z) Iq) as (Hx & Hy & Hz).
      exists e, x, y, z, j, (g0 (x, y, z)), (through f0 (f3_map e) x y z). repeat split; try assumption.
      * cbn [at_pt] in Vq. rewrite <- Vq, nth_error_map, Eg. reflexivity.
      * unfold exact3. rewrite nth_error_map, Ef0. reflexivity.
    + intros d (e & x & y & z & j & a & b & I & Hx & Hy & Hz & Ea & Eb & ->). apply M. destruct (RP e I) as (gs & EG & V).
      assert (Iq : In (x, y, z) (points m)) by (apply points_in; auto). pose proof (V _ Iq) as Vq. cbn [at_pt] in Vq. apply In_nth_error in Iq as (i & Ei).
      rewrite <- Vq, nth_error_map in Ea. destruct (nth_error gs j) as [g0|] eqn:Eg; [|discriminate]. injection Ea as <-.
      unfold exact3 in Eb. rewrite nth_error_map in Eb. destruct (nth_error fs j) as [f0|] eqn:Ef; [|discriminate]. injection Eb as <-.
      exists (eel3 k s m e), j, i, (map g0 (points m)), (at_pt f0), (g0 (x, y, z)), (pt3 (f3_map e) (x, y, z)). split; [rewrite concat_maps; apply in_map; exact I|].
      unfold eel3. cbn [vals xyz]. rewrite EG, !nth_error_map, Eg, Ef, Ei. repeat split.
Qed.

(* ---------- nodes ---------- *)
Lemma mids (f : R -> R -> R) (h : nat -> R) m : map2 f (removelast (map h (seq 0 (m + 1)))) (tl (map h (seq 0 (m + 1)))) = map (fun i => f (h i) (h (S i))) (seq 0 m).
Proof.
  rewrite seq_app, map_app. cbn [seq map Nat.add]. rewrite removelast_last. replace (tl (map h (seq 0 m) ++ [h m])) with (map (fun i => h (S i)) (seq 0 m)).
  - rewrite <- map2_maps2. reflexivity.
  - change [h m] with (map h [(0 + m)%nat]). rewrite <- map_app, <- seq_S. cbn [seq map tl]. rewrite <- seq_shift, map_map. reflexivity.
Qed.
Theorem inf_nodes_ok r : exists n, (0 < n)%nat /\ (1 <= r -> Rabs (INR n - r) <= 1 / 2) /\ (r < 1 -> n = 3%nat) /\
  inf_nodes r = map (fun i => -1 + (2 * INR i + 1) / INR n) (seq 0 n).
Proof.
  set (n := inf_num r).
  assert (A : (0 < n)%nat /\ (1 <= r -> Rabs (INR n - r) <= 1 / 2) /\ (r < 1 -> n = 3%nat)).
  { unfold n, inf_num. destruct (Rlt_dec r 1) as [Lt|Ge].
    - assert (I3 : Int_part 3 = 3%Z). { unfold Int_part. rewrite <- (tech_up 3 4) by lra. reflexivity. }
      assert (F3 : frac_part 3 = 0) by (unfold frac_part; rewrite I3; cbn; lra).
      rewrite F3. destruct (Rle_dec (1 / 2) 0); [lra|]. rewrite I3. split; [cbn; lia|]. split; [lra|]. intros _. reflexivity.
    - destruct (base_Int_part r) as [P Q]. assert (Z1 : (0 < Int_part r)%Z) by (apply lt_IZR; cbn; lra).
      assert (IN : INR (Z.to_nat (Int_part r)) = IZR (Int_part r)) by (rewrite INR_IZR_INZ, Z2Nat.id by lia; reflexivity).
      unfold frac_part. destruct (Rle_dec (1 / 2) (r - IZR (Int_part r))) as [H|H].
      + split; [lia|]. split; [|lra]. intros _. rewrite plus_INR, IN. cbn [INR]. unfold Rabs. destruct (Rcase_abs _); lra.
      + split; [lia|]. split; [|lra]. intros _. rewrite IN. unfold Rabs. destruct (Rcase_abs _); lra. }
  exists n. destruct A as (N & B & D). repeat split; try assumption. unfold inf_nodes. fold n. cbv zeta. unfold linspace. rewrite mids. apply map_ext. intros i.
  replace (n + 1 - 1)%nat with n by lia. rewrite S_INR. field. apply not_0_INR. lia.
Qed.
Lemma err_H_ok a b : exists h, err_H (Some a) (Some b) = Some h /\ 0 <= h /\ h ^ 2 = a ^ 2 + b ^ 2.
Proof. apply (nth_root_ok 2 (a ^ 2 + b ^ 2)); [lia|]. nra. Qed.
