(* The metric and the caches of cross products in the plane. *)
From Coq Require Import Reals List Lia Lra Arith ZArith Bool FunctionalExtensionality.
From Verif Require Import TfiModel TfiSpec CtModel CtSpec RingSum SpaceSpec DiscModel DiscSpec DiscProofs DiscProofs2 DiscProofs3 Disc2Model Disc2Spec Disc2Proofs.
From Verif Require Import ReconModel ReconSpec ReconProofs ReconProofs2 ReconProofs3 ReconProofs4 ReconProofs5 CrossModel CrossSpec CrossProofs CrossProofs2.
From Verif Require Import TriModel TriSpec TriProofs TdiscModel TdiscSpec TdiscProofs TreconModel TreconSpec TreconProofs TreconProofs3 TreconProofs4.
From Verif Require Import Rec2Model Rec2Spec Rec2Proofs Rec2Proofs2 Cr2Model Cr2Spec Cr2Proofs.
Import ListNotations.
Open Scope R_scope.

(* ---------- the product of pull backs ---------- *)
Definition pcross (o : orient) (a b : bool -> R) : R := match o with Inner => a false * b true - a true * b false | Outer => a true * b false - a false * b true end.
Lemma pull_cross o J u v hu hv : tpulls1 o J u hu -> tpulls1 o J v hv -> det2 J * (fst u * snd v - snd u * fst v) = pcross o hu hv.
Proof.
  intros A B. assert (A0 := A false). assert (A1 := A true). assert (B0 := B false). assert (B1 := B true). clear A B.
  destruct J as [[a b] [c d]], u as [u0 u1], v as [v0 v1]. destruct o; unfold dot2, det2, cross2, mcol, comp in *; cbn [fst snd] in *; unfold pcross;
    rewrite <- A0, <- A1, <- B0, <- B1; ring.
Qed.
Definition hat_triple (o : orient) (r0 r1 : rule) (w : R -> R -> R) (hu hv : bool -> R -> R -> R) : R :=
  tquad r0 r1 (fun x y => w x y * pcross o (fun d => hu d x y) (fun d => hv d x y)).
Lemma triple2_hat o r0 r1 J w u v hu hv :
  on_grid2 (fst r0) (fst r1) (fun x y => tpulls1 o (J x y) (u x y) (fun d => hu d x y)) ->
  on_grid2 (fst r0) (fst r1) (fun x y => tpulls1 o (J x y) (v x y) (fun d => hv d x y)) ->
  triple2 r0 r1 J w u v = hat_triple o r0 r1 w hu hv.
Proof.
  intros U V. unfold triple2, hat_triple. apply tquad_ext. intros x y X Y. rewrite plane_triple.
  rewrite <- (pull_cross o (J x y) (u x y) (v x y) _ _ (U x y X Y) (V x y X Y)). ring.
Qed.
Lemma pulls_exist o J (h : bool -> R -> R -> R) : exists v, forall x y, det2 (J x y) <> 0 -> tpulls1 o (J x y) (v x y) (fun d => h d x y).
Proof.
  exists (fun x y => tvalue1 o (ct2_inverse (J x y)) (h (ax o false) x y, h (ax o true) x y)). intros x y N. apply (value_pulls o (J x y) (fun d => h d x y)). exact N.
Qed.
Theorem cross_2d_metric_free o sw su se r0 r1 e e' cw cu ce :
  length (fst r0) = length (snd r0) -> length (fst r1) = length (snd r1) ->
  regular e (fst r0) (fst r1) -> orth_ok e (fst r0) (fst r1) -> regular e' (fst r0) (fst r1) -> orth_ok e' (fst r0) (fst r1) ->
  length cw = length (cells (deg2 sw) nodes2) -> length cu = length (cells (deg2 su) (edges2 o)) -> length ce = length (cells (deg2 se) (edges2 o)) ->
  CrossSpec.tri (cross_2d sk0 o o sw su se r0 r1 e) cw cu ce = CrossSpec.tri (cross_2d sk0 o o sw su se r0 r1 e') cw cu ce.
Proof.
  intros H0 H1 N D N' D' Lw Lu Le. assert (Lw' := numw_cells sk0 sw). cbv iota in Lw'. rewrite Lw' in Lw. clear Lw'. rewrite numv_cells in Lu, Le.
  destruct (pulls_exist o (el_J e) (r2hat1 o su cu)) as [u U], (pulls_exist o (el_J e) (r2hat1 o se ce)) as [v V].
  destruct (pulls_exist o (el_J e') (r2hat1 o su cu)) as [u' U'], (pulls_exist o (el_J e') (r2hat1 o se ce)) as [v' V'].
  assert (K : forall e u v, regular e (fst r0) (fst r1) -> orth_ok e (fst r0) (fst r1) ->
    (forall x y, det2 (el_J e x y) <> 0 -> tpulls1 o (el_J e x y) (u x y) (fun d => r2hat1 o su cu d x y)) ->
    (forall x y, det2 (el_J e x y) <> 0 -> tpulls1 o (el_J e x y) (v x y) (fun d => r2hat1 o se ce d x y)) ->
    CrossSpec.tri (cross_2d sk0 o o sw su se r0 r1 e) cw cu ce = hat_triple o r0 r1 (r2hat0 sw cw) (r2hat1 o su cu) (r2hat1 o se ce)).
  { clear - H0 H1 Lw Lu Le. intros e u v N D U V.
    rewrite (cross_2d_ok r0 r1 e H0 H1 N D sk0 o o sw su se cw cu ce (r2hat0 sw cw) u v).
    - apply triple2_hat; intros x y X Y; [apply U|apply V]; apply N; assumption.
    - split; [exact (eq_trans Lw (eq_sym (numw_cells sk0 sw)))|]. intros x y _ _. reflexivity.
    - split; [rewrite numv_cells; assumption|]. intros x y X Y. apply U. apply N; assumption.
    - split; [rewrite numv_cells; assumption|]. intros x y X Y. apply V. apply N; assumption. }
  rewrite (K e u v), (K e' u' v') by assumption. reflexivity.
Qed.
Theorem cross_2d_matrices k ou oe sw su se r0 r1 e cw cu ce :
  length cw = length (cells (deg2 sw) (match k with sk0 => nodes2 | sk2 => faces2 end)) ->
  length cu = length (cells (deg2 su) (edges2 ou)) -> length ce = length (cells (deg2 se) (edges2 oe)) ->
  let A := cross_2d k ou oe sw su se r0 r1 e in
  (bilinear (out_2M1 A cw (numv ou su) (numv oe se)) ce cu = CrossSpec.tri A cw cu ce /\ has_shape (out_2M1 A cw (numv ou su) (numv oe se)) (length ce) (length cu)) /\
  (bilinear (out_2M0 A cu (numv oe se)) ce cw = CrossSpec.tri A cw cu ce /\ has_shape (out_2M0 A cu (numv oe se)) (length ce) (length cw)).
Proof.
  intros Lw Lu Le. rewrite numw_cells in Lw. rewrite numv_cells in Lu, Le. cbv zeta. rewrite Lw, Lu, Le.
  assert (S : has_shape3 (cross_2d k ou oe sw su se r0 r1 e) (numw k sw) (numv ou su) (numv oe se)) by (unfold cross_2d; apply cp2_shape).
  split; [apply (out_2M1_ok _ _ _ _ cw cu ce S Lw Lu Le)|apply (out_2M0_ok _ _ _ _ cw cu ce S Lw Lu Le)].
Qed.
(* the matrices for a given scalar are skew *)
Theorem cross_2d_skew k o sw s r0 r1 e cw c c' :
  length (fst r0) = length (snd r0) -> length (fst r1) = length (snd r1) -> regular e (fst r0) (fst r1) -> orth_ok e (fst r0) (fst r1) ->
  length cw = length (cells (deg2 sw) (match k with sk0 => nodes2 | sk2 => faces2 end)) -> length c = length (cells (deg2 s) (edges2 o)) -> length c' = length (cells (deg2 s) (edges2 o)) ->
  let A := out_2M1 (cross_2d k o o sw s s r0 r1 e) cw (numv o s) (numv o s) in bilinear A c c' = - bilinear A c' c.
Proof.
  intros H0 H1 N D Lw L L'. rewrite numw_cells in Lw. rewrite numv_cells in L, L'. cbv zeta. assert (S : has_shape3 (cross_2d k o o sw s s r0 r1 e) (numw k sw) (numv o s) (numv o s)) by (unfold cross_2d; apply cp2_shape).
  rewrite (proj1 (out_2M1_ok _ _ _ _ cw c' c S Lw L' L)), (proj1 (out_2M1_ok _ _ _ _ cw c c' S Lw L L')).
  destruct (pulls_exist o (el_J e) (r2hat1 o s c)) as [u U], (pulls_exist o (el_J e) (r2hat1 o s c')) as [v V].
  assert (W : exists w, scalar_at k sw (fst r0) (fst r1) (el_J e) cw w).
  { destruct k; [exists (r2hat0 sw cw)|exists (fun x y => r2hat2 sw cw x y / det2 (el_J e x y))]; (split; [exact (eq_trans Lw (eq_sym (numw_cells _ sw)))|]); intros x y X Y; [reflexivity|].
    unfold field2, tpulls2. field. apply N; assumption. }
  destruct W as [w W].
  assert (VU : vector_at o s (fst r0) (fst r1) (el_J e) c u) by (split; [rewrite numv_cells; assumption|]; intros x y X Y; apply U; apply N; assumption).
  assert (VV : vector_at o s (fst r0) (fst r1) (el_J e) c' v) by (split; [rewrite numv_cells; assumption|]; intros x y X Y; apply V; apply N; assumption).
  rewrite (cross_2d_ok r0 r1 e H0 H1 N D k o o sw s s cw c' c w v u W VV VU), (cross_2d_ok r0 r1 e H0 H1 N D k o o sw s s cw c c' w u v W VU VV). apply triple2_skew.
Qed.

(* ---------- caches ---------- *)
Lemma list_eqb_ok {A} (eqb : A -> A -> bool) : (forall x y, eqb x y = true -> x = y) -> forall a b, list_eqb eqb a b = true -> a = b.
Proof. intros H. induction a as [|x a IH]; intros [|y b] E; cbn in E; try discriminate; [reflexivity|]. apply andb_true_iff in E as [E1 E2]. f_equal; [apply H, E1|apply IH, E2]. Qed.
Lemma key_eqb_ok a b : key_eqb a b = true -> a = b.
Proof.
  destruct a as [a a'], b as [b b']. unfold key_eqb, shape_eqb. cbn [fst snd]. intros E. apply andb_true_iff in E as [E1 E2]. f_equal.
  - apply (list_eqb_ok num_eqb); [|exact E1]. intros [x x'] [y y'] E. unfold num_eqb in E. cbn [fst snd] in E. apply andb_true_iff in E as [A B].
    apply Bool.eqb_prop in A. apply Z.eqb_eq in B. subst. reflexivity.
  - apply (list_eqb_ok Nat.eqb); [|exact E2]. intros x y E. apply Nat.eqb_eq, E.
Qed.
Section Requests.
Context {A : Type} (use : bool) (key : nat -> tkey) (compute : nat -> A) (Dom : nat -> Prop).
Lemma requests_inv cs : Forall Dom cs -> forall store, (forall k a, In (k, a) store -> exists c, Dom c /\ k = key c /\ a = compute c) ->
  Forall2 (fun c a => Dom c /\ exists c', Dom c' /\ key c = key c' /\ a = compute c') cs (requests use key compute store cs).
Proof.
  induction 1 as [|c cs Dc F IH]; intros store I; cbn [requests]; [constructor|]. unfold realtime.
  destruct use; [|constructor; [split; [exact Dc|exists c; repeat split; assumption]|apply IH; exact I]].
  unfold lookup. destruct (find (fun x => key_eqb (key c) (fst x)) store) as [[k a]|] eqn:E; cbn [snd].
  - apply find_some in E as [E K]. apply key_eqb_ok in K. cbn [fst] in K. destruct (I k a E) as (c' & D' & K' & A'). constructor; [|apply IH; exact I].
    split; [exact Dc|]. exists c'. repeat split; [exact D'|congruence|exact A'].
  - constructor; [split; [exact Dc|exists c; repeat split; assumption]|]. apply IH. intros k a [X|X]; [|exact (I k a X)]. injection X as <- <-. exists c. repeat split; assumption.
Qed.
End Requests.
Lemma F2_map {A} (Dom : nat -> Prop) (key : nat -> tkey) (compute : nat -> A) cs l : (forall c c', Dom c -> Dom c' -> key c = key c' -> compute c' = compute c) ->
  Forall2 (fun c a => Dom c /\ exists c', Dom c' /\ key c = key c' /\ a = compute c') cs l -> l = map compute cs.
Proof. intros H. induction 1 as [|c a cs l (I & c' & I' & K & ->) F IH]; [reflexivity|]. cbn [map]. rewrite IH. f_equal. apply H; assumption. Qed.
Lemma requests_map {A} use key (compute : nat -> A) cs : (forall c c', In c cs -> In c' cs -> key c = key c' -> compute c' = compute c) ->
  requests use key compute [] cs = map compute cs.
Proof.
  intros H. apply (F2_map (fun c => In c cs) key compute); [exact H|].
  exact (requests_inv use key compute (fun c => In c cs) cs (proj2 (Forall_forall _ _) (fun c I => I)) [] (fun k a I => match I with end)).
Qed.
Lemma F2_impl {A B} (R1 R2 : A -> B -> Prop) l m : (forall a b, R1 a b -> R2 a b) -> Forall2 R1 l m -> Forall2 R2 l m.
Proof. intros H. induction 1; constructor; auto. Qed.
Section Mesh.
Variables (pts : list point) (cls : list tri).
Lemma translates_J c c' : translates pts cls c c' -> cellJ pts cls c = cellJ pts cls c'.
Proof.
  intros T. assert (T1 := T 1%nat ltac:(lia)). assert (T2 := T 2%nat ltac:(lia)). cbv zeta in T1, T2. injection T1 as X1 Y1. injection T2 as X2 Y2.
  unfold cellJ. apply functional_extensionality; intro r. apply functional_extensionality; intro s. rewrite !tct_J.
  destruct (corner pts cls c 0), (corner pts cls c 1), (corner pts cls c 2), (corner pts cls c' 0), (corner pts cls c' 1), (corner pts cls c' 2). cbn [fst snd] in *.
  repeat (f_equal; try lra).
Qed.
Theorem mass0_requests_ok els P r0 r1 cs : shapes_tell pts cls cs -> mass0_requests pts cls els P r0 r1 cs = map (fun c => tinner0 P P r0 r1 (cellJ pts cls c)) cs.
Proof. intros S. apply requests_map. intros c c' I I' K. apply (f_equal fst) in K. cbn [key0 fst] in K. rewrite (translates_J c c' (S c c' I I' K)). reflexivity. Qed.
Theorem mass2_requests_ok els P r0 r1 cs : shapes_tell pts cls cs -> mass2_requests pts cls els P r0 r1 cs = map (fun c => tinner2 P P r0 r1 (cellJ pts cls c)) cs.
Proof. intros S. apply requests_map. intros c c' I I' K. apply (f_equal fst) in K. cbn [key0 fst] in K. rewrite (translates_J c c' (S c c' I I' K)). reflexivity. Qed.
Lemma transition_minus o p M c c' k : minus_edges o M c = minus_edges o M c' -> transition o p M c k = transition o p M c' k.
Proof. unfold transition. intros ->. reflexivity. Qed.
Lemma tbasis1_at_minus o P M c c' xi et : minus_edges o M c = minus_edges o M c' -> tbasis1_at o P M c xi et = tbasis1_at o P M c' xi et.
Proof. intros E. unfold tbasis1_at, transition. rewrite E. reflexivity. Qed.
Theorem mass1_requests_ok M els o P r0 r1 cs : shapes_tell pts cls cs ->
  mass1_requests pts cls M els o P r0 r1 cs = map (fun c => tinner1 true o P P M c r0 r1 (cellJ pts cls c)) cs.
Proof.
  intros S. apply requests_map. intros c c' I I' K. assert (K1 := f_equal fst K). assert (K2 := f_equal snd K). cbn [key1 fst snd] in K1, K2. rewrite (translates_J c c' (S c c' I I' K1)).
  unfold tinner1. rewrite (tbasis1_at_minus o P M c c') by exact K2. reflexivity.
Qed.
(* cross products of two vectors of one orientation: whatever the shapes *)
Theorem cross_requests_ok M els o Pw Pu Pe r0 r1 cs : length (fst r0) = length (snd r0) -> length (fst r1) = length (snd r1) ->
  (forall c, In c cs -> on_grid2 (fst r0) (fst r1) (fun x y => det2 (cellJ pts cls c x y) <> 0)) ->
  Forall2 (fun c A => forall cw cu ce w u v,
    tscalar_at Pw (fst r0) (fst r1) cw w -> tvector_at o Pu M c (fst r0) (fst r1) (cellJ pts cls c) cu u -> tvector_at o Pe M c (fst r0) (fst r1) (cellJ pts cls c) ce v ->
    CrossSpec.tri A cw cu ce = triple2 r0 r1 (cellJ pts cls c) w u v) cs (cross_requests pts cls M els o o Pw Pu Pe r0 r1 cs).
Proof.
  intros H0 H1 N. assert (X := requests_inv (high_similarity pts cls els) (key1 pts cls M o) (fun c => cross_tri o o Pw Pu Pe M r0 r1 (cellJ pts cls c) c) (fun c => In c cs) cs
    (proj2 (Forall_forall _ _) (fun c I => I)) [] (fun k a I => match I with end)). unfold cross_requests.
  eapply F2_impl; [|exact X]. clear X. intros c A (I & c' & I' & K & ->) cw cu ce w u v Sw Su Se. apply (f_equal snd) in K. cbn [key1 snd] in K.
  assert (Q : forall P (x : list R) d, that1 o P M c' x d = that1 o P M c x d).
  { intros P x d. unfold that1, edge_val, transition. rewrite K. reflexivity. }
  destruct (pulls_exist o (cellJ pts cls c') (that1 o Pu M c' cu)) as [u' U'], (pulls_exist o (cellJ pts cls c') (that1 o Pe M c' ce)) as [v' V'].
  rewrite (cross_tri_ok r0 r1 (cellJ pts cls c') M c' H0 H1 (N c' I') o o Pw Pu Pe cw cu ce w u' v' Sw).
  - rewrite (triple2_hat o r0 r1 (cellJ pts cls c') w u' v' (that1 o Pu M c' cu) (that1 o Pe M c' ce));
      [|intros x y X Y; apply U'; apply (N c' I'); assumption|intros x y X Y; apply V'; apply (N c' I'); assumption].
    rewrite (triple2_hat o r0 r1 (cellJ pts cls c) w u v (that1 o Pu M c cu) (that1 o Pe M c ce)); [|apply Su|apply Se].
    unfold hat_triple. apply tquad_ext. intros x y _ _. destruct o; unfold pcross; rewrite !Q; reflexivity.
  - split; [apply Su|]. intros x y X Y. apply U'. apply (N c' I'); assumption.
  - split; [apply Se|]. intros x y X Y. apply V'. apply (N c' I'); assumption.
Qed.
(* coordinates of four decimals: the indicator tells *)
Lemma round_even_Z k : round_even (IZR k) = k.
Proof.
  unfold round_even. assert (E : Int_part (IZR k) = k).
  { unfold Int_part. assert (U := tech_up (IZR k) (k + 1)). rewrite plus_IZR in U. rewrite <- U by lra. lia. }
  rewrite E. unfold frac_part. rewrite E. destruct (Rlt_dec (IZR k - IZR k) (1 / 2)); [reflexivity|lra].
Qed.
Lemma fmt4_lattice k : fmt4 (IZR k / 10000) = ((k <? 0)%Z, Z.abs k).
Proof.
  unfold fmt4. f_equal.
  - destruct (Rlt_dec (IZR k / 10000) 0) as [L|L]; destruct (Z.ltb_spec k 0) as [B|B]; try reflexivity; exfalso.
    + apply IZR_le in B. lra.
    + apply IZR_lt in B. lra.
  - replace (10000 * Rabs (IZR k / 10000)) with (IZR (Z.abs k)); [apply round_even_Z|].
    unfold Rdiv. rewrite Rabs_mult, (Rabs_pos_eq (/ 10000)) by lra. rewrite Rabs_Zabs. field.
Qed.
Lemma fmt4_inj i j : fmt4 (IZR i / 10000) = fmt4 (IZR j / 10000) -> i = j.
Proof. rewrite !fmt4_lattice. intros E. injection E as A B. destruct (Z.ltb_spec i 0), (Z.ltb_spec j 0); try discriminate; lia. Qed.
Lemma lattice_corner : on_lattice pts -> forall c k, exists i j : Z, corner pts cls c k = (IZR i / 10000, IZR j / 10000).
Proof.
  intros L c k. unfold corner, at_point. destruct (nth_in_or_default (nth k (vertices (cell_at cls c)) 0%nat) pts (0, 0)) as [I|E]; [apply L, I|].
  exists 0%Z, 0%Z. rewrite E. f_equal; field.
Qed.
Theorem lattice_tell : on_lattice pts -> forall c c', shape pts cls c = shape pts cls c' -> translates pts cls c c'.
Proof.
  intros L c c'. unfold shape, shape_of, translates.
  destruct (lattice_corner L c 0) as (a0 & b0 & E0), (lattice_corner L c 1) as (a1 & b1 & E1), (lattice_corner L c 2) as (a2 & b2 & E2).
  destruct (lattice_corner L c' 0) as (a0' & b0' & E0'), (lattice_corner L c' 1) as (a1' & b1' & E1'), (lattice_corner L c' 2) as (a2' & b2' & E2').
  rewrite E0, E1, E2, E0', E1', E2'. cbn [fst snd].
  assert (D : forall x y, IZR x / 10000 - IZR y / 10000 = IZR (x - y) / 10000) by (intros; rewrite minus_IZR; field). rewrite !D.
  intros E. assert (Q : forall (p q r s p' q' r' s' : bool * Z), [p; q; r; s] = [p'; q'; r'; s'] -> p = p' /\ q = q' /\ r = r' /\ s = s')
    by (intros * Z; injection Z; intros; subst; repeat split; reflexivity).
  apply Q in E as (F1 & F2 & F3 & F4). apply fmt4_inj in F1, F2, F3, F4.
  intros i Hi. destruct i as [|[|[|i]]]; [| | |lia]; rewrite ?E0, ?E1, ?E2, ?E0', ?E1', ?E2'; cbn [fst snd]; rewrite !D; f_equal; f_equal; f_equal; lia.
Qed.
Lemma F2_maps {A} (f : nat -> A) (Q : nat -> A -> Prop) cs : (forall c, In c cs -> Q c (f c)) -> Forall2 Q cs (map f cs).
Proof. induction cs as [|c cs IH]; intros H; cbn [map]; constructor; [apply H; left; reflexivity|]. apply IH. intros c' I. apply H. right. exact I. Qed.
Theorem mass0_integrals els P r0 r1 cs : length (fst r0) = length (snd r0) -> length (fst r1) = length (snd r1) -> shapes_tell pts cls cs ->
  Forall2 (fun c A => forall a b, bilinear A a b = tquad r0 r1 (fun x y => det2 (cellJ pts cls c x y) * (that0 P a x y * that0 P b x y)))
    cs (mass0_requests pts cls els P r0 r1 cs).
Proof. intros H0 H1 S. rewrite mass0_requests_ok by exact S. apply F2_maps. intros c _ a b. apply tinner0_ok; assumption. Qed.
Theorem mass1_integrals M els o P r0 r1 cs : length (fst r0) = length (snd r0) -> length (fst r1) = length (snd r1) -> shapes_tell pts cls cs ->
  (forall c, In c cs -> on_grid2 (fst r0) (fst r1) (fun x y => det2 (cellJ pts cls c x y) <> 0)) ->
  Forall2 (fun c A => forall a b u v,
    on_grid2 (fst r0) (fst r1) (fun x y => tpulls1 o (cellJ pts cls c x y) (u x y) (fun d => that1 o P M c a d x y)) ->
    on_grid2 (fst r0) (fst r1) (fun x y => tpulls1 o (cellJ pts cls c x y) (v x y) (fun d => that1 o P M c b d x y)) ->
    bilinear A a b = tquad r0 r1 (fun x y => det2 (cellJ pts cls c x y) * dot2 (u x y) (v x y)))
    cs (mass1_requests pts cls M els o P r0 r1 cs).
Proof. intros H0 H1 S N. rewrite mass1_requests_ok by exact S. apply F2_maps. intros c I a b u v U V. apply tinner1_ok; try assumption; [apply N, I|reflexivity]. Qed.
Theorem mass2_integrals els P r0 r1 cs : length (fst r0) = length (snd r0) -> length (fst r1) = length (snd r1) -> shapes_tell pts cls cs ->
  (forall c, In c cs -> on_grid2 (fst r0) (fst r1) (fun x y => det2 (cellJ pts cls c x y) <> 0)) ->
  Forall2 (fun c A => forall a b u v,
    on_grid2 (fst r0) (fst r1) (fun x y => tpulls2 (cellJ pts cls c x y) (u x y) (that2 P a x y)) ->
    on_grid2 (fst r0) (fst r1) (fun x y => tpulls2 (cellJ pts cls c x y) (v x y) (that2 P b x y)) ->
    bilinear A a b = tquad r0 r1 (fun x y => det2 (cellJ pts cls c x y) * (u x y * v x y)))
    cs (mass2_requests pts cls els P r0 r1 cs).
Proof. intros H0 H1 S N. rewrite mass2_requests_ok by exact S. apply F2_maps. intros c I a b u v U V. apply tinner2_ok; try assumption. apply N, I. Qed.
End Mesh.
Theorem lattice_shapes_tell pts cls cs : on_lattice pts -> shapes_tell pts cls cs.
Proof. intros L c c' _ _. apply lattice_tell. exact L. Qed.
