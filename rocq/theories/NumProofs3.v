(** Proofs about NumModel: conforming numberings. *)
From Coq Require Import List Arith Bool Lia Relations.
From Verif Require Import Prelude PreludeProofs SpaceModel SpaceSpec SpaceProofs MeshModel MeshMapModel MeshMapProofs2 TraceModel TraceProofs TraceProofs2 TraceProofs3 NumModel NumSpec NumProofs NumProofs2.
Import ListNotations.

Section Conforming.
  Variables (k : nform) (p : list nat) (ms : list emap) (N : nat).
  Let L := concat ms.
  Hypothesis HL : map fst L = seq 0 N.
  Hypothesis HR : forall e row, In (e, row) L -> length row = 2 * length p.
  Let ts := types k (length p).
  Let V := place k p.
  Let t := toC k (length p).
  Lemma split_j j : j = 2 * (j / 2) + (if Nat.odd j then 1 else 0).
  Proof. assert (X := Nat.div_mod j 2 ltac:(lia)). rewrite <- Nat.bit0_mod in X. destruct (Nat.odd j) eqn:O; rewrite Nat.bit0_odd, O in X; cbn [Nat.b2n] in X; lia. Qed.
  Lemma join_j ax (up : bool) : (2 * ax + (if up then 1 else 0)) / 2 = ax /\ Nat.odd (2 * ax + (if up then 1 else 0)) = up.
  Proof.
    split.
    - destruct up; [|rewrite Nat.add_0_r; rewrite Nat.mul_comm; apply Nat.div_mul; lia]. rewrite Nat.mul_comm, Nat.div_add_l by lia. cbn. lia.
    - destruct up; [rewrite Nat.add_comm; rewrite Nat.odd_add_mul_2; reflexivity|rewrite Nat.add_0_r; rewrite Nat.odd_mul; reflexivity].
  Qed.
  Lemma nbj_nbr e j f : nbj ms e j f <-> nbr_of L e (j / 2) (Nat.odd j) f.
  Proof. unfold nbj, nbr_of. rewrite <- split_j. reflexivity. Qed.
  Lemma nbr_nbj e ax up f : nbr_of L e ax up f <-> nbj ms e (2 * ax + (if up then 1 else 0)) f.
  Proof. reflexivity. Qed.
  Lemma nbr_ax e ax up f : nbr_of L e ax up f -> ax < length p.
  Proof. intros (row & H & K). apply HR in H. assert (X : 2 * ax + (if up then 1 else 0) < length row) by (apply nth_error_Some; congruence). lia. Qed.
  Lemma Gm_glued e q f q' : V q -> V q' -> (Gm k p ms (e, q) (f, q') <-> glued p (nbr_of L) (e, t q) (f, t q')).
  Proof.
    intros Hq Hq'. unfold Gm, glued. cbn [fst snd]. split.
    - intros (j & H & K). exists (j / 2), (Nat.odd j). apply nbj_nbr in H. split; [exact H|]. apply (src_spec k p j q' q (nbr_ax _ _ _ _ H) Hq') in K. apply K.
    - intros (ax & up & H & K). exists (2 * ax + (if up then 1 else 0)). split; [exact H|]. destruct (join_j ax up) as [J1 J2].
      apply src_spec; [rewrite J1; eapply nbr_ax; exact H|exact Hq'|]. rewrite J1, J2. split; [exact Hq|exact K].
  Qed.
  Lemma reach_follows : reach ms N <-> follows (nbr_of L) N.
  Proof.
    split.
    - intros H e He. destruct (H e He) as (f & j & Lf & K). exists f, (j / 2), (Nat.odd j). split; [exact Lf|]. apply (proj1 (nbj_nbr f j e)). exact K.
    - intros H e He. destruct (H e He) as (f & ax & up & Lf & K). exists f, (2 * ax + (if up then 1 else 0)). auto.
  Qed.
  Theorem naive_success : naive k p ms <> None <-> follows (nbr_of L) N.
  Proof.
    rewrite <- reach_follows. assert (NO := naive_ok k p ms N HL HR). destruct (naive k p ms); [split; [intros _; apply NO|discriminate]|]. split; [congruence|contradiction].
  Qed.
  Section Got.
    Variable gms : list (list (nat * list nat)).
    Hypothesis HG : naive k p ms = Some gms.
    Lemma got : exists num K, stepwise V (Gm k p ms) num N /\ ranges k p N K num /\ gms = map (sent k p num) ms.
    Proof. assert (NO := naive_ok k p ms N HL HR). rewrite HG in NO. apply NO. Qed.
    Lemma keys_lt e row : In (e, row) L -> e < N.
    Proof. intros H. assert (X := in_map fst _ _ H). rewrite HL in X. apply in_seq in X. cbn [fst] in X. lia. Qed.
    Lemma key_row e : e < N -> exists row, In (e, row) L.
    Proof. intros H. assert (X : In e (map fst L)) by (rewrite HL; apply in_seq; lia). apply in_map_iff in X. destruct X as ([e' row] & <- & X). eauto. Qed.
    Section Num.
      Variables (num : nat -> NumModel.cell -> nat) (K : nat).
      Hypothesis St : stepwise V (Gm k p ms) num N.
      Hypothesis Rg : ranges k p N K num.
      Hypothesis Eg : gms = map (sent k p num) ms.
      Lemma in_gm e v : In (e, v) (concat gms) <-> e < N /\ v = map (num e) (cellsF (shapes_of k p)).
      Proof.
        assert (E : concat gms = map (fun er => (fst er, map (num (fst er)) (cellsF (shapes_of k p)))) L) by (rewrite Eg; unfold L; symmetry; rewrite concat_map; reflexivity).
        rewrite E, in_map_iff. split.
        - intros ([e' row] & [= <- <-] & H). split; [eapply keys_lt; exact H|reflexivity].
        - intros [He ->]. destruct (key_row e He) as [row Hr]. exists (e, row). auto.
      Qed.
      Lemma numbered_num e q n : e < N -> V q -> (numbered p ts (concat gms) (e, t q) n <-> n = num e q).
      Proof.
        intros He Hq. unfold numbered. cbn [fst snd]. unfold ts. rewrite cells_toC. fold t. split.
        - intros (v & i & Hv & Hc & Hn). apply in_gm in Hv. destruct Hv as [_ ->]. rewrite nth_error_map in Hc, Hn. destruct (nth_error (cellsF (shapes_of k p)) i) as [q'|] eqn:E; [|discriminate].
          cbn [option_map] in Hc, Hn. injection Hn as <-. f_equal. symmetry. apply (toC_inj k p).
          + exact Hq. + destruct q'. apply in_cellsF. eapply nth_error_In. exact E. + assert (X := f_equal (fun o => match o with Some x => x | None => [] end) Hc). cbn beta iota in X. symmetry. exact X.
        - intros ->. assert (Hi : In q (cellsF (shapes_of k p))) by (destruct q; apply in_cellsF; exact Hq). apply In_nth_error in Hi. destruct Hi as [i Hi].
          exists (map (num e) (cellsF (shapes_of k p))), i. rewrite !nth_error_map, Hi. refine (conj _ (conj eq_refl eq_refl)). apply in_gm. auto.
      Qed.
      Lemma gm_total : total p ts N (concat gms).
      Proof.
        split.
        - rewrite Eg. rewrite concat_map, map_map. rewrite <- HL. unfold L. rewrite concat_map. f_equal. apply map_ext. intros m. unfold sent. rewrite map_map. reflexivity.
        - intros e v H. apply in_gm in H. destruct H as [_ ->]. unfold ts. rewrite cells_toC, !map_length. reflexivity.
      Qed.
      Lemma gm_consecutive : consecutive (concat gms) K.
      Proof.
        intros n. rewrite (Rg n). split.
        - intros (e & q & He & Hq & <-). exists e, (map (num e) (cellsF (shapes_of k p))). split; [apply in_gm; auto|]. apply in_map. destruct q. apply in_cellsF. exact Hq.
        - intros (e & v & Hv & Hn). apply in_gm in Hv. destruct Hv as [He ->]. apply in_map_iff in Hn. destruct Hn as ([c i] & <- & Hq). apply in_cellsF in Hq. exists e, (c, i). auto.
      Qed.
      Section Rel.
        Variable Q : nat * SpaceSpec.cell -> nat * SpaceSpec.cell -> Prop.
        Hypothesis Qrefl : forall a, Q a a.
        Hypothesis Qsym : forall a b, Q a b -> Q b a.
        Hypothesis Qtrans : forall a b c, Q a b -> Q b c -> Q a c.
        Hypothesis QG : forall a b, cell_of p ts N a -> cell_of p ts N b -> glued p (nbr_of L) a b -> Q a b.
        Let Q' (a b : nat * NumModel.cell) : Prop := Q (fst a, t (snd a)) (fst b, t (snd b)).
        Lemma Q'G : forall e q f q', e < N -> f < N -> V q -> V q' -> Gm k p ms (e, q) (f, q') -> Q' (e, q) (f, q').
        Proof.
          intros e q f q' He Hf Hq Hq' H. unfold Q'. cbn [fst snd]. apply QG; [split; [exact He|apply place_toC; exact Hq]|split; [exact Hf|apply place_toC; exact Hq']|]. apply Gm_glued; assumption.
        Qed.
        Lemma sound_Q a b n : cell_of p ts N a -> cell_of p ts N b -> numbered p ts (concat gms) a n -> numbered p ts (concat gms) b n -> Q a b.
        Proof.
          destruct a as [e x], b as [f y]. intros [He Hx] [Hf Hy] A B. cbn [fst snd] in *. apply toC_place in Hx, Hy. destruct Hx as (q & Hq & ->), Hy as (q' & Hq' & ->).
          apply numbered_num in A, B; auto. refine (step_sound V (Gm k p ms) num Q' _ _ _ N _ St e q f q' He Hf Hq Hq' _).
          - intros a. apply Qrefl. - intros a b. apply Qsym. - intros a b c. apply Qtrans. - exact Q'G. - congruence.
        Qed.
        Hypothesis H1 : forall e x f y, e <= f -> (e, x) <> (f, y) -> cell_of p ts N (e, x) -> cell_of p ts N (f, y) -> Q (e, x) (f, y) -> exists g z, g < f /\ In z (cells p ts) /\ glued p (nbr_of L) (g, z) (f, y).
        Lemma conforming_Q : conforming p ts N (concat gms) Q.
        Proof.
          intros a b m n Ha Hb A B. split; [intros <-; eapply sound_Q; eassumption|].
          destruct a as [e x], b as [f y]. destruct Ha as [He Hx], Hb as [Hf Hy]. cbn [fst snd] in *. apply toC_place in Hx, Hy. destruct Hx as (q & Hq & ->), Hy as (q' & Hq' & ->).
          apply numbered_num in A, B; auto. intros HQ. subst m n. refine (step_complete V (Gm k p ms) num Q' _ _ N _ St _ _ e q f q' He Hf Hq Hq' HQ).
          - intros a b. apply Qsym. - intros a b c. apply Qtrans. - exact Q'G.
          - intros e' r f' r' Lt Lf Vr Vr' Nr HQ'. destruct (H1 e' (t r) f' (t r') Lt) as (g & z & Lg & Hz & GG); [|split; [cbn; lia|apply place_toC; exact Vr]|split; [exact Lf|apply place_toC; exact Vr']|exact HQ'|].
            { intros X. apply Nr. injection X as -> X. f_equal. apply (toC_inj k p); assumption. }
            apply toC_place in Hz. destruct Hz as (s & Hs & ->). exists g, s. refine (conj Lg (conj Hs _)). apply Gm_glued; assumption.
          - intros [c i] [c' i']. destruct (Nat.eq_dec c c') as [->|]; [|right; congruence]. destruct (list_eq_dec Nat.eq_dec i i') as [->|]; [left; reflexivity|right; congruence].
        Qed.
      End Rel.
      Lemma ident_refl a : identified p ts (nbr_of L) N a a. Proof. apply rst_refl. Qed.
      Lemma ident_sym a b : identified p ts (nbr_of L) N a b -> identified p ts (nbr_of L) N b a. Proof. apply rst_sym. Qed.
      Lemma ident_trans a b c : identified p ts (nbr_of L) N a b -> identified p ts (nbr_of L) N b c -> identified p ts (nbr_of L) N a c. Proof. apply rst_trans. Qed.
      Lemma ident_glued a b : cell_of p ts N a -> cell_of p ts N b -> glued p (nbr_of L) a b -> identified p ts (nbr_of L) N a b.
      Proof. intros. apply rst_step. auto. Qed.
      Lemma ident_cells a b : identified p ts (nbr_of L) N a b -> a = b \/ (cell_of p ts N a /\ cell_of p ts N b).
      Proof.
        induction 1 as [a b (A & B & _)|a|a b _ [->|[A B]]|a b c _ [->|[A B]] _ [->|[C D]]]; auto.
      Qed.
      Lemma conforming_iff : conforming p ts N (concat gms) (identified p ts (nbr_of L) N) <-> met_before p ts (nbr_of L) N.
      Proof.
        split.
        - intros HC.
          assert (HE : forall e q f q', e < N -> f < N -> V q -> V q' -> identified p ts (nbr_of L) N (e, t q) (f, t q') -> num e q = num f q').
          { intros e q f q' He Hf Hq Hq' HI. apply (HC (e, t q) (f, t q')); auto; try (split; [assumption|apply place_toC; assumption]); apply numbered_num; auto. }
          intros e x f y Lt Nx [He Hx] [Hf Hy] HI. cbn [fst snd] in *. apply toC_place in Hx, Hy. destruct Hx as (q & Hq & ->), Hy as (q' & Hq' & ->).
          destruct (step_needs V (Gm k p ms) num (fun a b => identified p ts (nbr_of L) N (fst a, t (snd a)) (fst b, t (snd b))) N St) with (e := e) (q := q) (f := f) (q' := q') as (g & s & Lg & Hs & GG); auto.
          { intros X. apply Nx. injection X as -> ->. reflexivity. }
          exists g, (t s). refine (conj Lg (conj _ _)); [apply place_toC; exact Hs|apply Gm_glued; assumption].
        - intros A. apply conforming_Q; auto using ident_refl, ident_sym, ident_glued. apply ident_trans.
      Qed.
    End Num.
    Theorem naive_total : total p ts N (concat gms) /\ map (map fst) gms = map (map fst) ms /\ exists K, consecutive (concat gms) K.
    Proof.
      destruct got as (num & K & St & Rg & Eg). refine (conj (gm_total num Eg) (conj _ _)); [|exists K; apply (gm_consecutive num K Rg Eg)].
      rewrite Eg, map_map. apply map_ext. intros m. unfold sent. rewrite map_map. reflexivity.
    Qed.
    Theorem naive_sound : forall a b n, cell_of p ts N a -> cell_of p ts N b -> numbered p ts (concat gms) a n -> numbered p ts (concat gms) b n -> identified p ts (nbr_of L) N a b.
    Proof.
      destruct got as (num & K & St & Rg & Eg). apply (sound_Q num St Eg); auto using ident_refl, ident_sym, ident_glued. apply ident_trans.
    Qed.
    Theorem naive_conforming : conforming p ts N (concat gms) (identified p ts (nbr_of L) N) <-> met_before p ts (nbr_of L) N.
    Proof. destruct got as (num & K & St & Rg & Eg). apply (conforming_iff num St Eg). Qed.
  End Got.
End Conforming.
