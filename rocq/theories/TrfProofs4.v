(* Mass matrices of trace forms; discretization of reconstructed trace forms. *)
From Coq Require Import Reals List ZArith Lia Lra Bool Psatz.
From Verif Require SpaceProofs SpaceProofs5.
From Verif Require Import TfiModel TfiSpec CtModel CtSpec CtProofs RingSum SpaceSpec SpaceModel DiscModel DiscSpec DiscProofs DiscProofs2 DiscProofs3
  ReconModel ReconSpec ReconProofs ReconProofs2 ReconProofs3 ReconProofs4 ReconProofs5 TrfModel TrfSpec TrfProofs TrfProofs2 TrfProofs3.
Import ListNotations.
Open Scope R_scope.

(* ---------- mass matrices ---------- *)
Lemma map2_flip {A} (h : A -> R) P W : map2 Rmult (map h P) W = map2 (fun a x => a * h x) W P.
Proof. revert W. induction P as [|x P IH]; intros [|w W]; try reflexivity. cbn [map map2]. rewrite IH, Rmult_comm. reflexivity. Qed.
Lemma side_weights_ok q s : side_weights_q q s = qw (side_rule s q).
Proof.
  destruct s; unfold side_weights_q, qw, side_rule, on_axis3, kron_v, weights3; cbn [across q0 q1 q2 fst snd];
  first [apply flat_map_ext'; intros z; rewrite <- flat_single; apply flat_map_ext'; intros y; cbn [map]; f_equal; ring
        |apply flat_map_ext'; intros z; cbn [flat_map]; rewrite app_nil_r; apply map_ext; intros x; ring
        |cbn [flat_map]; rewrite app_nil_r; apply flat_map_ext'; intros z; apply map_ext; intros x; ring].
Qed.
Lemma qmesh_side q s : qmesh (side_rule s q) = side_mesh s (qmesh q).
Proof. destruct s; reflexivity. Qed.
Lemma rules_side q s : rules_ok q -> rules_ok (side_rule s q).
Proof. intros (A & B & C). destruct s; repeat split; try assumption; reflexivity. Qed.
Lemma weights_side q s : positive_weights q -> positive_weights (side_rule s q).
Proof.
  intros H w Hw. destruct s; unfold side_rule, on_axis3 in Hw; cbn [across q0 q1 q2 fst snd] in Hw;
  repeat match type of Hw with
  | _ \/ _ => destruct Hw as [Hw|Hw]
  | In _ [1] => destruct Hw as [<-|[]]; lra
  end; try (destruct Hw as [<-|[]]; lra); apply H; tauto.
Qed.
Definition mass_fac (k : tdeg) (J : mat3) (s : tside) : R := match k with D0 => norm (area_vec J s) | D2 => / norm (area_vec J s) end.
Definition side_val sp s (c : cell) (x : pt) : R := at_pt (side_fn sp s c) x.
Lemma trf_mass_kmat k sp q J s : trf_mass k sp q J s =
  kmat (side_cells (degrees sp) (types_of k) s) (side_cells (degrees sp) (types_of k) s)
       (entry (wpts (side_rule s q)) (fun x => mass_fac k (at_pt J x) s) (side_val sp s) (side_val sp s)).
Proof.
  unfold trf_mass. cbv zeta. rewrite side_basis_rows, side_points_mesh, map2_flip, side_weights_ok, <- qmesh_side. unfold side_row. rewrite <- qmesh_side.
  replace (fun (a : R) (x : R * R * R) => a * match k with D0 => sqrt (side_metric J s x) | D2 => / sqrt (side_metric J s x) end)
    with (fun (a : R) (x : R * R * R) => a * match k with D0 => sqrt (tr_metric (tr_Jacobian_matrix (at_pt J x) s)) | D2 => / sqrt (tr_metric (tr_Jacobian_matrix (at_pt J x) s)) end) by reflexivity.
  rewrite (TrfProofs2.map2_ext _ (fun a x => a * mass_fac k (at_pt J x) s)) by (intros; unfold mass_fac; rewrite sqrt_metric; reflexivity).
  exact (gram_kmat _ (points (qmesh (side_rule s q))) (fun x => mass_fac k (at_pt J x) s) (side_val sp s) (side_val sp s) _ _).
Qed.
Lemma mass_bilinear k sp q J s a b : rules_ok q -> bilinear (trf_mass k sp q J s) a b =
  quad3 (side_rule s q) (fun x y z => mass_fac k (J x y z) s * (side_hat k sp s a x y z * side_hat k sp s b x y z)).
Proof.
  intros Rq. rewrite trf_mass_kmat, bilinear_kmat, (quad_points _ _ (rules_side q s Rq)). unfold entry.
  transitivity (rsum (combine (side_cells (degrees sp) (types_of k) s) a) (fun oc => rsum (wpts (side_rule s q)) (fun wx =>
    fst wx * mass_fac k (at_pt J (snd wx)) s * (snd oc * side_val sp s (fst oc) (snd wx) * at_pt (side_hat k sp s b) (snd wx))))).
  - apply rsum_ext. intros oc _.
    transitivity (rsum (combine (side_cells (degrees sp) (types_of k) s) b) (fun tc => rsum (wpts (side_rule s q)) (fun wx =>
      fst wx * mass_fac k (at_pt J (snd wx)) s * (snd oc * side_val sp s (fst oc) (snd wx) * (snd tc * side_val sp s (fst tc) (snd wx)))))).
    + apply rsum_ext. intros tc _. rewrite (Rmult_comm (snd oc * snd tc)), rsum_scal. apply rsum_ext. intros [w x] _. cbn [fst snd]. ring.
    + rewrite rsum_swap. apply rsum_ext. intros [w [[x y] z]] _. cbn [fst snd at_pt]. unfold side_hat at 1. unfold side_val. cbn [at_pt].
      match goal with |- _ = ?p * (?u * ?v) => transitivity (v * (p * u)); [|ring] end. rewrite rsum_scal. apply rsum_ext. intros. ring.
  - rewrite rsum_swap. apply rsum_ext. intros [w [[x y] z]] _. cbn [fst snd at_pt]. unfold side_val. cbn [at_pt].
    match goal with |- _ = ?p * (?f * (?u * ?v)) => transitivity (u * (p * f * v)); [|ring] end. unfold side_hat at 2. rewrite rsum_scal. apply rsum_ext. intros. ring.
Qed.
Theorem trf_mass0_ok sp q J s a b : rules_ok q -> bilinear (trf_mass D0 sp q J s) a b =
  quad3 (side_rule s q) (fun x y z => norm (area_vec (J x y z) s) * (side_hat D0 sp s a x y z * side_hat D0 sp s b x y z)).
Proof. apply mass_bilinear. Qed.
Lemma quad3_ext q h h' : on_grid (qmesh q) (fun x y z => h x y z = h' x y z) -> rules_ok q -> quad3 q h = quad3 q h'.
Proof.
  intros H Rq. rewrite !quad_points by exact Rq. apply rsum_ext. intros [w x] I. cbn [fst snd]. f_equal. apply in_combine_r in I.
  pose proof (in_points _ _ _ H I) as P. destruct x as [[x y] z]. exact P.
Qed.
Theorem trf_mass2_ok sp q J s a b (v w : R -> R -> R -> R) : rules_ok q ->
  on_grid (side_mesh s (qmesh q)) (fun x y z => area_vec (J x y z) s <> zero_vec /\
    v x y z * norm (area_vec (J x y z) s) = side_hat D2 sp s a x y z /\ w x y z * norm (area_vec (J x y z) s) = side_hat D2 sp s b x y z) ->
  bilinear (trf_mass D2 sp q J s) a b = quad3 (side_rule s q) (fun x y z => norm (area_vec (J x y z) s) * (v x y z * w x y z)).
Proof.
  intros Rq H. rewrite mass_bilinear by exact Rq. apply quad3_ext; [|apply rules_side; exact Rq]. rewrite qmesh_side. intros x y z X Y Z.
  destruct (H x y z X Y Z) as (A & V & W). rewrite <- V, <- W. unfold mass_fac. pose proof (norm_pos _ A). field. lra.
Qed.
Theorem trf_mass_sym k sp q J s : symmetric (trf_mass k sp q J s) (nface k sp s).
Proof. rewrite trf_mass_kmat. apply kmat_sym. intros. apply entry_sym. Qed.

Section Pos.
Variables (k : tdeg) (sp : Space3) (q : Rule3) (s : tside).
Hypotheses (Rq : rules_ok q) (Wq : positive_weights q) (Sep : rules_separate q sp).
Definition tangent_rules : (Poly1 * list R) * (Poly1 * list R) := side_pair s (s0 sp, fst (q0 q)) (s1 sp, fst (q1 q)) (s2 sp, fst (q2 q)).
Lemma side_null c : length c = nface k sp s -> on_grid (side_mesh s (qmesh q)) (fun x y z => side_hat k sp s c x y z = 0) -> c = repeat 0 (nface k sp s).
Proof.
  intros L H. assert (N : NoDup (side_cells (degrees sp) (types_of k) s)) by (apply NoDup_filter, SpaceProofs.NoDup_cells, types3).
  rewrite (as_map _ c N L) in H |- *. set (W := fun e => nth (SpaceProofs.pos (side_cells (degrees sp) (types_of k) s) e) c 0) in *. clearbody W.
  assert (G : forall e, In e (side_cells (degrees sp) (types_of k) s) -> W e = 0).
  2: { unfold nface. clear - G. induction (side_cells (degrees sp) (types_of k) s) as [|e l IH]; [reflexivity|]. cbn [map length repeat].
       rewrite G by (left; reflexivity). f_equal. apply IH. intros. apply G. right. assumption. }
  intros e He. unfold degrees in He. rewrite side_cells_loops in He. apply in_loops in He as (i & j & Hi & Hj & ->).
  assert (Z : forall x y z, In x (mx (side_mesh s (qmesh q))) -> In y (my (side_mesh s (qmesh q))) -> In z (mz (side_mesh s (qmesh q))) ->
    rsum (seq 0 (size (snd (side_pair s (pdeg (s0 sp)) (pdeg (s1 sp)) (pdeg (s2 sp)))) (kind k))) (fun j => rsum (seq 0 (size (fst (side_pair s (pdeg (s0 sp)) (pdeg (s1 sp)) (pdeg (s2 sp)))) (kind k)))
      (fun i => W (side_cell s k (pdeg (s0 sp)) (pdeg (s1 sp)) (pdeg (s2 sp)) i j) * side_fn sp s (side_cell s k (pdeg (s0 sp)) (pdeg (s1 sp)) (pdeg (s2 sp)) i j) x y z)) = 0).
  { intros x y z X Y Z. rewrite <- (H x y z X Y Z), side_hat_map. unfold degrees. rewrite side_cells_loops, rsum_loops. reflexivity. }
  clear H. destruct Sep as (S0 & S1 & S2). unfold side_cell, side_fn in Z |- *.
  assert (Core : forall Pa Pb la lb (V : nat -> nat -> R), separates la Pa -> separates lb Pb ->
    (forall a b, In a la -> In b lb -> rsum (seq 0 (size (pdeg Pb) (kind k))) (fun j => rsum (seq 0 (size (pdeg Pa) (kind k))) (fun i => V i j * (factor_fn Pa (kind k, i) a * factor_fn Pb (kind k, j) b))) = 0) ->
    forall i j, (i < size (pdeg Pa) (kind k))%nat -> (j < size (pdeg Pb) (kind k))%nat -> V i j = 0).
  { clear. intros Pa Pb la lb V Sa Sb H i j Hi Hj. apply (sep_factor _ _ (kind k) Sa (fun i => V i j)); [|exact Hi]. intros a A.
    apply (sep_factor _ _ (kind k) Sb (fun j => rsum (seq 0 (size (pdeg Pa) (kind k))) (fun i => V i j * factor_fn Pa (kind k, i) a))); [|exact Hj]. intros b Bb.
    rewrite <- (H a b A Bb). apply rsum_ext. intros j' _. rewrite rsum_scal. apply rsum_ext. intros i' _. ring. }
  destruct s; cbn [across side_pair fst snd] in *.
  - apply (Core (s1 sp) (s2 sp) _ _ (fun i j => W [(false, _); (kind k, i); (kind k, j)]) S1 S2); [|assumption..]. intros a b A Bb. exact (Z (-1) a b (or_introl eq_refl) A Bb).
  - apply (Core (s1 sp) (s2 sp) _ _ (fun i j => W [(false, _); (kind k, i); (kind k, j)]) S1 S2); [|assumption..]. intros a b A Bb. exact (Z 1 a b (or_introl eq_refl) A Bb).
  - apply (Core (s0 sp) (s2 sp) _ _ (fun i j => W [(kind k, i); (false, _); (kind k, j)]) S0 S2); [|assumption..]. intros a b A Bb. exact (Z a (-1) b A (or_introl eq_refl) Bb).
  - apply (Core (s0 sp) (s2 sp) _ _ (fun i j => W [(kind k, i); (false, _); (kind k, j)]) S0 S2); [|assumption..]. intros a b A Bb. exact (Z a 1 b A (or_introl eq_refl) Bb).
  - apply (Core (s0 sp) (s1 sp) _ _ (fun i j => W [(kind k, i); (kind k, j); (false, _)]) S0 S1); [|assumption..]. intros a b A Bb. exact (Z a b (-1) A Bb (or_introl eq_refl)).
  - apply (Core (s0 sp) (s1 sp) _ _ (fun i j => W [(kind k, i); (kind k, j); (false, _)]) S0 S1); [|assumption..]. intros a b A Bb. exact (Z a b 1 A Bb (or_introl eq_refl)).
Qed.
Theorem trf_mass_pos J : on_grid (side_mesh s (qmesh q)) (fun x y z => area_vec (J x y z) s <> zero_vec) -> positive_definite (trf_mass k sp q J s) (nface k sp s).
Proof.
  intros A c L. rewrite mass_bilinear by exact Rq.
  assert (Fp : on_grid (qmesh (side_rule s q)) (fun x y z => 0 < mass_fac k (J x y z) s)).
  { rewrite qmesh_side. intros x y z X Y Z. pose proof (norm_pos _ (A x y z X Y Z)). unfold mass_fac. destruct k; [assumption|apply Rinv_0_lt_compat; assumption]. }
  assert (P : on_grid (qmesh (side_rule s q)) (fun x y z => 0 <= mass_fac k (J x y z) s * (side_hat k sp s c x y z * side_hat k sp s c x y z))).
  { intros x y z X Y Z. pose proof (Fp x y z X Y Z). apply Rmult_le_pos; [lra|apply Rle_0_sqr]. }
  split; [apply (quad_nonneg _ (weights_side q s Wq)); exact P|]. intros Z0. apply side_null; [exact L|]. rewrite <- qmesh_side. intros x y z X Y Z.
  assert (T := quad_null _ (rules_side q s Rq) (weights_side q s Wq) _ P Z0 x y z X Y Z). cbv beta in T. pose proof (Fp x y z X Y Z) as Q. cbv beta in Q.
  apply Rmult_integral in T as [T|T]; [lra|]. apply Rmult_integral in T as [T|T]; exact T.
Qed.
End Pos.

(* ---------- values of 2-traces are normal components ---------- *)
Theorem normal_value g sp s c J x y z u w : basis3_of g sp -> ends_ok g (pdeg (s0 sp)) (pdeg (s1 sp)) (pdeg (s2 sp)) ->
  length c = length (cells (degrees sp) faces3) -> TfiModel.get (x, y, z) (across s) = end_pt s -> area_vec J s <> zero_vec ->
  pulls2 J u (fun d => hat2 sp c d x y z) -> w * norm (area_vec J s) = side_hat D2 sp s (restrict_to (degrees sp) faces3 s c) x y z ->
  w = component (area_vec J s) u.
Proof.
  intros B E L H A Pu Hw. assert (T := trace_hat g sp B E D2 s c L x y z H). cbn [hat_of types_of] in T. rewrite T in Hw. clear T. rewrite <- (Pu (across s)) in Hw.
  pose proof (norm_pos _ A). unfold component. apply (Rmult_eq_reg_r (norm (area_vec J s))); [|lra]. rewrite Hw. unfold area_vec in *. field. lra.
Qed.

(* ---------- discretization of reconstructed traces ---------- *)
Section DiscRecon.
Variables (g : Grid) (sp : Space3) (s : tside).
Hypothesis G : grid_ok g.
Hypothesis B : basis3_of g sp.
Hypothesis X : rules_exact g sp.
Hypothesis E : ends_ok g (pdeg (s0 sp)) (pdeg (s1 sp)) (pdeg (s2 sp)).
Lemma lens_ok : lengths_ok g (pdeg (s0 sp)) (pdeg (s1 sp)) (pdeg (s2 sp)).
Proof. exact (lens g sp B). Qed.
(* the cochain of the element that is c on the side and zero elsewhere *)
Lemma side_dual k c n e : length c = nface k sp s -> nth_error (side_cells (degrees sp) (types_of k) s) n = Some e ->
  cell_quad g (side_hat k sp s c) e = nth n c 0.
Proof.
  intros L Hn. assert (N : NoDup (side_cells (degrees sp) (types_of k) s)) by (apply NoDup_filter, SpaceProofs.NoDup_cells, types3).
  assert (Ie := nth_error_In _ _ Hn).
  transitivity (cell_quad g (hat_of sp k s (map (fun e => nth (SpaceProofs.pos (side_cells (degrees sp) (types_of k) s) e) c 0) (cells (degrees sp) (types_of k)))) e).
  - apply (side_quad_ext g _ _ _ s k _ _ _ G lens_ok E); [|exact Ie]. intros x y z _ _ _ H.
    rewrite <- (trace_hat_map g sp B E k s _ x y z H), restrict_map, <- (as_map _ c N L). reflexivity.
  - apply filter_In in Ie as [Ic Is]. apply In_nth_error in Ic as [m Hm].
    set (W := fun e => nth (SpaceProofs.pos (side_cells (degrees sp) (types_of k) s) e) c 0).
    assert (Q : cell_quad g (hat_of sp k s (map W (cells (degrees sp) (types_of k)))) e = nth m (map W (cells (degrees sp) (types_of k))) 0).
    { assert (T3 : Forall (fun t : ctype => length t = 3%nat) (types_of k)) by (destruct k; repeat constructor).
      assert (Lm : length (map W (cells (degrees sp) (types_of k))) = length (cells (degrees sp) (types_of k))) by apply map_length.
      assert (Nn : normal e = across s \/ k = D0).
      { destruct k; [right; reflexivity|left]. apply (side_normal (pdeg (s0 sp)) (pdeg (s1 sp)) (pdeg (s2 sp))). exact (nth_error_In _ _ Hn). }
      destruct k; cbn [hat_of types_of] in *.
      - refine (dual g sp B X nodes3 (fun _ => true) _ m e (SpaceProofs.NoDup_cells _ _ (types3 sp D0)) T3 Lm Hm eq_refl _). intros e' I _.
        assert (C : forall e, In e (cells (degrees sp) nodes3) -> map fst e = [false; false; false]).
        { clear. intros e I. unfold cells, nodes3 in I. cbn [flat_map] in I. rewrite app_nil_r in I. apply In_cells_t in I; [exact I|reflexivity]. }
        rewrite (C e' I), (C e (nth_error_In _ _ Hm)). reflexivity.
      - destruct Nn as [Nn|Nn]; [|discriminate].
        refine (dual g sp B X faces3 (fun f => ceqb (normal f) (across s)) _ m e (SpaceProofs.NoDup_cells _ _ (types3 sp D2)) T3 Lm Hm _ _).
        + apply ceqb_eq. exact Nn.
        + intros e' I Hs. apply ceqb_eq in Hs. rewrite <- Nn in Hs.
          assert (C : forall e, In e (cells (degrees sp) faces3) -> In (map fst e) faces3) by (intros e0 I0; apply (cell_type (degrees sp)); [reflexivity|exact T3|exact I0]).
          pose proof (C e' I) as C'. pose proof (C e (nth_error_In _ _ Hm)) as C''. unfold normal in Hs. clear - C' C'' Hs. revert Hs.
          destruct C' as [<-|[<-|[<-|[]]]], C'' as [<-|[<-|[<-|[]]]]; intros Hs; (reflexivity || discriminate). }
    rewrite Q, (nth_error_nth _ _ 0 (map_nth_error W _ _ Hm)). unfold W. f_equal. apply SpaceProofs.pos_eq; assumption.
Qed.
Lemma side_recover k c (V : cell -> R) : length c = nface k sp s ->
  (forall e, In e (side_cells (degrees sp) (types_of k) s) -> V e = cell_quad g (side_hat k sp s c) e) ->
  map V (side_cells (degrees sp) (types_of k) s) = c.
Proof.
  intros L H. apply (list_nth_eq _ _ 0); [rewrite map_length; symmetry; exact L|]. intros n Hn. rewrite map_length in Hn.
  destruct (nth_error (side_cells (degrees sp) (types_of k) s) n) as [e|] eqn:Ee; [|apply nth_error_None in Ee; lia].
  rewrite (nth_error_nth _ _ 0 (map_nth_error V _ _ Ee)), H by (eapply nth_error_In; exact Ee). apply side_dual; assumption.
Qed.
Theorem trf_disc_recon0 F f c : length c = nface D0 sp s -> on_face s (fun x y z => through f F x y z = side_hat D0 sp s c x y z) ->
  trf_disc0 (gx g) (gy g) (gz g) F s f = c.
Proof.
  intros L H. rewrite (trf_disc0_ok g _ _ _ lens_ok E). apply (side_recover D0); [exact L|]. intros e I.
  apply (side_quad_ext g _ _ _ s D0 _ _ _ G lens_ok E H I).
Qed.
Theorem trf_disc_recon2 F J f c : length c = nface D2 sp s ->
  on_face s (fun x y z => through f F x y z * norm (area_vec (J x y z) s) = side_hat D2 sp s c x y z) ->
  trf_disc2 (gx g) (gy g) (gz g) (pdeg (s0 sp)) (pdeg (s1 sp)) (pdeg (s2 sp)) (rx g) (ry g) (rz g) F J s f = c.
Proof.
  intros L H. rewrite (trf_disc2_ok g _ _ _ lens_ok E). apply (side_recover D2); [exact L|]. intros e I.
  apply (side_quad_ext g _ _ _ s D2 _ _ _ G lens_ok E H I).
Qed.
Theorem trf_disc_recon2v F J v c : length c = nface D2 sp s -> on_face s (fun x y z => area_vec (J x y z) s <> zero_vec) ->
  on_face s (fun x y z => component (area_vec (J x y z) s) (through (value v) F x y z) * norm (area_vec (J x y z) s) = side_hat D2 sp s c x y z) ->
  trf_disc2v (gx g) (gy g) (gz g) (pdeg (s0 sp)) (pdeg (s1 sp)) (pdeg (s2 sp)) (rx g) (ry g) (rz g) F J s v = c.
Proof.
  intros L A H. rewrite (trf_disc2v_ok g _ _ _ lens_ok E F J v s G A). apply (side_recover D2); [exact L|]. intros e I. unfold int2.
  rewrite (side_normal _ _ _ s e I). apply (side_quad_ext g _ _ _ s D2 _ _ _ G lens_ok E); [|exact I]. intros x y z Hx Hy Hz Hs.
  rewrite <- (H x y z Hx Hy Hz Hs), <- normal_component. symmetry. apply flux_pull. apply A; assumption.
Qed.
End DiscRecon.
Theorem trf_disc_recon0v g sp s F J v c : grid_ok g -> basis3_of g sp -> rules_exact g sp -> ends_ok g (pdeg (s0 sp)) (pdeg (s1 sp)) (pdeg (s2 sp)) ->
  length c = nface D0 sp s -> on_face s (fun x y z => component (area_vec (J x y z) s) (through (value v) F x y z) = side_hat D0 sp s c x y z) ->
  trf_disc0v (gx g) (gy g) (gz g) F J s v = c.
Proof.
  intros G B X E L H. rewrite (trf_disc0v_ok g _ _ _ (lens_ok g sp B) E). apply (side_recover g sp s G B X E D0); [exact L|]. intros e I.
  apply (side_quad_ext g _ _ _ s D0 _ _ _ G (lens_ok g sp B) E H I).
Qed.

(* ---------- the trace of the discretization ---------- *)
Section TraceDisc.
Variables (g : Grid) (p0 p1 p2 : nat).
Hypotheses (L : lengths_ok g p0 p1 p2) (E : ends_ok g p0 p1 p2).
Theorem trace_disc0 F f s : trf_disc0 (gx g) (gy g) (gz g) F s f = restrict_to [p0; p1; p2] nodes3 s (disc0 (gx g) (gy g) (gz g) F f).
Proof. destruct L as (L0 & L1 & L2). rewrite (trf_disc0_ok g p0 p1 p2 L E), (disc0_ok g p0 p1 p2 F f L0 L1 L2), restrict_map. reflexivity. Qed.
Theorem trace_disc2 F J orth v s : grid_ok g -> (orth = true -> forall x y z, diagonal (J x y z)) ->
  on_face s (fun x y z => area_vec (J x y z) s <> zero_vec) ->
  trf_disc2v (gx g) (gy g) (gz g) p0 p1 p2 (rx g) (ry g) (rz g) F J s v =
  restrict_to [p0; p1; p2] faces3 s (disc2 (gx g) (gy g) (gz g) p0 p1 p2 (rx g) (ry g) (rz g) F J orth v).
Proof. intros G O A. rewrite (trf_disc2v_ok g p0 p1 p2 L E F J v s G A), (disc2_ok g p0 p1 p2 F J orth v O), restrict_map. reflexivity. Qed.
Hypothesis P : Forall (fun n => 1 <= n)%nat [p0; p1; p2].
Theorem trace_matrix0 F f : exists M, trace0 outward [p0; p1; p2] = Some M /\
  mat_times M (disc0 (gx g) (gy g) (gz g) F f)
    (flat_map (fun s => map (Rmult (if upper s then 1 else -1)) (trf_disc0 (gx g) (gy g) (gz g) F s f)) all_sides).
Proof.
  destruct (SpaceProofs5.trace0_ok p0 p1 p2 P outward) as (M & HM & HR). exists M. split; [exact HM|].
  assert (K : SpaceProofs.types_ok [p0; p1; p2] nodes3) by (exact (types3 (mkSpace3 (mkPoly1 p0 (fun _ _ => 0) (fun _ _ => 0)) (mkPoly1 p1 (fun _ _ => 0) (fun _ _ => 0)) (mkPoly1 p2 (fun _ _ => 0) (fun _ _ => 0))) D0)).
  destruct L as (L0 & L1 & L2).
  assert (T := traces_ok outward [p0; p1; p2] nodes3 M (disc0 (gx g) (gy g) (gz g) F f) K ltac:(rewrite (disc0_ok g p0 p1 p2 F f L0 L1 L2); apply map_length) HR).
  unfold signed_traces in T. erewrite flat_map_ext'; [exact T|]. intros s. cbv beta. rewrite (trace_disc0 F f s). destruct s; reflexivity.
Qed.
Theorem trace_matrix2 F J orth v : grid_ok g -> (orth = true -> forall x y z, diagonal (J x y z)) ->
  (forall s, on_face s (fun x y z => area_vec (J x y z) s <> zero_vec)) -> exists M, trace2 outward [p0; p1; p2] = Some M /\
  mat_times M (disc2 (gx g) (gy g) (gz g) p0 p1 p2 (rx g) (ry g) (rz g) F J orth v)
    (flat_map (fun s => map (Rmult (if upper s then 1 else -1)) (trf_disc2v (gx g) (gy g) (gz g) p0 p1 p2 (rx g) (ry g) (rz g) F J s v)) all_sides).
Proof.
  intros G O A. destruct (SpaceProofs5.trace2_ok p0 p1 p2 P outward) as (M & HM & HR). exists M. split; [exact HM|].
  assert (K : SpaceProofs.types_ok [p0; p1; p2] faces3) by (exact (types3 (mkSpace3 (mkPoly1 p0 (fun _ _ => 0) (fun _ _ => 0)) (mkPoly1 p1 (fun _ _ => 0) (fun _ _ => 0)) (mkPoly1 p2 (fun _ _ => 0) (fun _ _ => 0))) D2)).
  assert (T := traces_ok outward [p0; p1; p2] faces3 M (disc2 (gx g) (gy g) (gz g) p0 p1 p2 (rx g) (ry g) (rz g) F J orth v) K
    ltac:(rewrite (disc2_ok g p0 p1 p2 F J orth v O); apply map_length) HR).
  unfold signed_traces in T. erewrite flat_map_ext'; [exact T|]. intros s. cbv beta. rewrite (trace_disc2 F J orth v s G O (A s)). destruct s; reflexivity.
Qed.
End TraceDisc.
