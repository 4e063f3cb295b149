(* The arrays of cross products are triple products. *)
From Coq Require Import Reals List ZArith Lia Lra Bool.
From Verif Require Import TfiModel TfiSpec TfiProofs CtModel CtSpec CtProofs RingSum SpaceModel SpaceSpec SpaceProofs.
From Verif Require Import DiscModel DiscSpec DiscProofs DiscProofs2 DiscProofs3 ReconModel ReconSpec ReconProofs ReconProofs2 ReconProofs3 ReconProofs4.
From Verif Require Import CrossModel CrossSpec.
Import ListNotations.
Open Scope R_scope.

(* ---------- sums over indices ---------- *)
Definition sq (n : nat) (f : nat -> R) : R := rsum (seq 0 n) f.
Lemma sq_ext n f g : (forall i, (i < n)%nat -> f i = g i) -> sq n f = sq n g.
Proof. intros H. apply rsum_ext. intros i Hi. apply H. apply in_seq in Hi. lia. Qed.
Lemma sq_swap n m f : sq n (fun i => sq m (fun j => f i j)) = sq m (fun j => sq n (fun i => f i j)).
Proof. apply rsum_swap. Qed.
Lemma sq_add n f g : sq n (fun i => f i + g i) = sq n f + sq n g.
Proof. unfold sq. induction (seq 0 n) as [|a l IH]; [cbn; ring|]. rewrite !rsum_cons, IH. ring. Qed.
Lemma sq_sub n f g : sq n (fun i => f i - g i) = sq n f - sq n g.
Proof. unfold sq. induction (seq 0 n) as [|a l IH]; [cbn; ring|]. rewrite !rsum_cons, IH. ring. Qed.
Lemma sq_mult_l n f c : c * sq n f = sq n (fun i => c * f i).
Proof. apply rsum_mult_l. Qed.
Lemma sq_mult_r n f c : sq n f * c = sq n (fun i => f i * c).
Proof. apply rsum_scal. Qed.
Lemma lsum_map {A} (l : list A) (f : A -> R) : lsum (map f l) = rsum l f.
Proof. induction l as [|a l IH]; [reflexivity|]. cbn [map]. rewrite rsum_cons, <- IH. reflexivity. Qed.
Lemma seq_S n : seq 0 (S n) = 0%nat :: map S (seq 0 n).
Proof. cbn [seq]. rewrite seq_shift. reflexivity. Qed.
Lemma combine_sq {A} (d : A) (l : list A) (c : list R) f : (length c <= length l)%nat ->
  rsum (combine l c) f = sq (length c) (fun i => f (nth i l d, nth i c 0)).
Proof.
  revert c. induction l as [|a l IH]; intros [|b c] L; try reflexivity.
  - cbn in L. lia.
  - unfold sq. cbn [combine length]. rewrite seq_S, !rsum_cons, ReconProofs.rsum_map. cbn [nth]. rewrite IH by (cbn in L; lia). reflexivity.
Qed.
Lemma dot_sq (l c : list R) : rsum (combine l c) (fun ab => fst ab * snd ab) = sq (length c) (fun i => nth i l 0 * nth i c 0).
Proof.
  revert c. induction l as [|a l IH]; intros [|b c]; try reflexivity.
  - cbn [combine]. unfold sq. symmetry. apply rsum_zero'. intros i _. destruct i; cbn [nth]; ring.
  - unfold sq. cbn [combine length]. rewrite seq_S, !rsum_cons, ReconProofs.rsum_map. cbn [nth]. rewrite IH. reflexivity.
Qed.
Lemma nth_map_seq {A} (f : nat -> A) n i d : (i < n)%nat -> nth i (map f (seq 0 n)) d = f i.
Proof. intros H. rewrite (nth_indep _ d (f 0%nat)) by (rewrite map_length, seq_length; exact H). rewrite map_nth, seq_nth by exact H. reflexivity. Qed.
Lemma len_map_seq {A} (f : nat -> A) n : length (map f (seq 0 n)) = n.
Proof. rewrite map_length. apply seq_length. Qed.
Lemma times_seq n (f : nat -> list R) b : times (map f (seq 0 n)) b = map (fun k => sq (length b) (fun j => nth j (f k) 0 * nth j b 0)) (seq 0 n).
Proof. unfold times. rewrite map_map. apply map_ext. intros k. apply dot_sq. Qed.
Lemma dotl_seq a n (f : nat -> R) : length a = n -> dotl a (map f (seq 0 n)) = sq n (fun k => nth k a 0 * f k).
Proof.
  intros L. unfold dotl. rewrite rsum_combine_swap. cbn [fst snd].
  rewrite (combine_sq 0) by (rewrite len_map_seq; lia). rewrite L. apply sq_ext. intros i Hi. cbn [fst snd]. rewrite nth_map_seq by exact Hi. reflexivity.
Qed.

(* ---------- 3d arrays ---------- *)
Section Tab.
Variables ni nj nk : nat.
Lemma get_tab3 f i j k : (i < ni)%nat -> (j < nj)%nat -> (k < nk)%nat -> get3 (tab3 ni nj nk f) i j k = f i j k.
Proof. intros Hi Hj Hk. unfold get3, tab3. rewrite (nth_map_seq _ ni i) by exact Hi. rewrite (nth_map_seq _ nj j) by exact Hj. apply nth_map_seq. exact Hk. Qed.
Lemma shape_tab3 f : has_shape3 (tab3 ni nj nk f) ni nj nk.
Proof.
  split; [apply len_map_seq|]. intros Mi H. apply in_map_iff in H as (i & <- & _). split; [apply len_map_seq|].
  intros row H. apply in_map_iff in H as (j & <- & _). apply len_map_seq.
Qed.
Lemma tab3_ext f g : (forall i j k, (i < ni)%nat -> (j < nj)%nat -> (k < nk)%nat -> f i j k = g i j k) -> tab3 ni nj nk f = tab3 ni nj nk g.
Proof.
  intros H. apply map_ext_in. intros i Hi. apply map_ext_in. intros j Hj. apply map_ext_in. intros k Hk. apply in_seq in Hi, Hj, Hk. apply H; lia.
Qed.
Lemma list_tab {A} (d : A) l n : length l = n -> map (fun i => nth i l d) (seq 0 n) = l.
Proof. intros L. apply (nth_ext _ _ d d); rewrite len_map_seq; [lia|]. intros i Hi. apply (nth_map_seq (fun i => nth i l d)). exact Hi. Qed.
Lemma tab3_get M : has_shape3 M ni nj nk -> tab3 ni nj nk (get3 M) = M.
Proof.
  intros (L & H). etransitivity; [|exact (list_tab [] M ni L)]. apply map_ext_in. intros i Hi. apply in_seq in Hi.
  destruct (H (nth i M [])) as [L1 H1]; [apply nth_In; lia|]. etransitivity; [|exact (list_tab [] (nth i M []) nj L1)]. apply map_ext_in. intros j Hj. apply in_seq in Hj.
  assert (L2 := H1 (nth j (nth i M []) []) ltac:(apply nth_In; lia)). exact (list_tab 0 _ nk L2).
Qed.
Variables a b c : list R.
Hypotheses (La : length a = ni) (Lb : length b = nj) (Lc : length c = nk).
Lemma tri_tab f : tri (tab3 ni nj nk f) a b c = sq ni (fun i => sq nj (fun j => sq nk (fun k => f i j k * nth i a 0 * nth j b 0 * nth k c 0))).
Proof.
  unfold tri. rewrite (combine_sq []) by (unfold tab3; rewrite len_map_seq; lia). rewrite La. apply sq_ext. intros i Hi. cbn [fst snd]. unfold tab3. rewrite nth_map_seq by exact Hi.
  rewrite (combine_sq []) by (rewrite len_map_seq; lia). rewrite Lb. apply sq_ext. intros j Hj. cbn [fst snd]. rewrite nth_map_seq by exact Hj.
  rewrite (combine_sq 0) by (rewrite len_map_seq; lia). rewrite Lc. apply sq_ext. intros k Hk. cbn [fst snd]. rewrite nth_map_seq by exact Hk. reflexivity.
Qed.
Lemma out_2M1_tab f : bilinear (out_2M1 (tab3 ni nj nk f) a nj nk) c b = tri (tab3 ni nj nk f) a b c.
Proof.
  rewrite tri_tab. unfold bilinear, out_2M1. rewrite times_seq. fold (dotl c (map (fun k => sq (length b) (fun j => nth j
    (map (fun j => lsum (map2 (fun Mi x => nth k (nth j Mi []) 0 * x) (tab3 ni nj nk f) a)) (seq 0 nj)) 0 * nth j b 0)) (seq 0 nk))).
  rewrite (dotl_seq c nk _ Lc). rewrite Lb.
  etransitivity; [|apply sq_ext; intros i _; apply sq_swap]. rewrite (sq_swap ni nk). apply sq_ext. intros k Hk. rewrite (sq_swap ni nj), sq_mult_l. apply sq_ext. intros j Hj.
  rewrite nth_map_seq by exact Hj. rewrite lsum_map2. unfold tab3. rewrite (combine_sq []) by (rewrite len_map_seq; lia). rewrite La, sq_mult_r, sq_mult_l.
  apply sq_ext. intros i Hi. cbn [fst snd]. rewrite nth_map_seq by exact Hi. rewrite nth_map_seq by exact Hj. rewrite nth_map_seq by exact Hk. ring.
Qed.
Lemma out_2M0_tab f : bilinear (out_2M0 (tab3 ni nj nk f) b nk) c a = tri (tab3 ni nj nk f) a b c.
Proof.
  rewrite tri_tab. unfold bilinear, out_2M0. rewrite times_seq. fold (dotl c (map (fun k => sq (length a) (fun i => nth i
    (map (fun Mi => lsum (map2 (fun Mij x => nth k Mij 0 * x) Mi b)) (tab3 ni nj nk f)) 0 * nth i a 0)) (seq 0 nk))).
  rewrite (dotl_seq c nk _ Lc). rewrite La.
  etransitivity; [|apply sq_ext; intros i _; apply sq_swap]. rewrite (sq_swap ni nk). apply sq_ext. intros k Hk. rewrite sq_mult_l. apply sq_ext. intros i Hi.
  unfold tab3. rewrite map_map. rewrite nth_map_seq by exact Hi. rewrite lsum_map2. rewrite (combine_sq []) by (rewrite len_map_seq; lia). rewrite Lb, sq_mult_r, sq_mult_l.
  apply sq_ext. intros j Hj. cbn [fst snd]. rewrite nth_map_seq by exact Hj. rewrite nth_map_seq by exact Hk. ring.
Qed.
End Tab.

(* ---------- np.einsum of reconstruction matrices ---------- *)
Lemma rsum_sq {A} (l : list A) n f : rsum l (fun p => sq n (fun i => f p i)) = sq n (fun i => rsum l (fun p => f p i)).
Proof. apply rsum_swap. Qed.
Lemma sq_prod n m p f g h : sq n f * sq m g * sq p h = sq n (fun i => sq m (fun j => sq p (fun k => f i * g j * h k))).
Proof.
  rewrite !sq_mult_r. apply sq_ext. intros i _. rewrite (sq_mult_l m g (f i)), sq_mult_r. apply sq_ext. intros j _. apply sq_mult_l.
Qed.
Lemma tri_einsum ni nj nk A B C w a b c : length a = ni -> length b = nj -> length c = nk ->
  tri (einsum4 A B C w ni nj nk) a b c =
  rsum (combine (combine (combine (times A a) (times B b)) (times C c)) w) (fun r => match r with (x, y, z, t) => x * y * z * t end).
Proof.
  intros <- <- <-. unfold einsum4. rewrite tri_tab by reflexivity.
  transitivity (rsum (combine (combine (combine A B) C) w) (fun r => match r with (ra, rb, rc, t) =>
    rsum (combine ra a) (fun ab => fst ab * snd ab) * rsum (combine rb b) (fun ab => fst ab * snd ab) * rsum (combine rc c) (fun ab => fst ab * snd ab) * t end)).
  - transitivity (rsum (combine (combine (combine A B) C) w) (fun r => sq (length a) (fun i => sq (length b) (fun j => sq (length c) (fun k =>
      match r with (ra, rb, rc, t) => nth i ra 0 * nth j rb 0 * nth k rc 0 * t * nth i a 0 * nth j b 0 * nth k c 0 end))))).
    + rewrite rsum_sq. apply sq_ext. intros i _. rewrite rsum_sq. apply sq_ext. intros j _. rewrite rsum_sq. apply sq_ext. intros k _.
      rewrite lsum_map2. rewrite !rsum_scal. apply rsum_ext. intros [[[ra rb] rc] t] _. cbn [fst snd]. ring.
    + apply rsum_ext. intros [[[ra rb] rc] t] _. rewrite !dot_sq. rewrite sq_prod, sq_mult_r. apply sq_ext. intros i _. rewrite sq_mult_r. apply sq_ext. intros j _.
      rewrite sq_mult_r. apply sq_ext. intros k _. ring.
  - unfold times. rewrite !combine_maps2, combine_map_l, ReconProofs.rsum_map. apply rsum_ext. intros [[[ra rb] rc] t] _. reflexivity.
Qed.
Lemma tri_plus ni nj nk f g a b c : length a = ni -> length b = nj -> length c = nk ->
  tri (plus3 (tab3 ni nj nk f) (tab3 ni nj nk g)) a b c = tri (tab3 ni nj nk f) a b c + tri (tab3 ni nj nk g) a b c.
Proof.
  intros La Lb Lc. replace (plus3 (tab3 ni nj nk f) (tab3 ni nj nk g)) with (tab3 ni nj nk (fun i j k => f i j k + g i j k)).
  - rewrite !tri_tab by assumption. rewrite <- sq_add. apply sq_ext. intros i _. rewrite <- sq_add. apply sq_ext. intros j _. rewrite <- sq_add. apply sq_ext. intros k _. ring.
  - unfold plus3, tab3. rewrite map2_maps. apply map_ext. intros i. rewrite map2_maps. apply map_ext. intros j. rewrite map2_maps. reflexivity.
Qed.
Lemma minus_tab ni nj nk f g : minus3 (tab3 ni nj nk f) (tab3 ni nj nk g) = tab3 ni nj nk (fun i j k => f i j k - g i j k).
Proof. unfold minus3, tab3. rewrite map2_maps. apply map_ext. intros i. rewrite map2_maps. apply map_ext. intros j. rewrite map2_maps. reflexivity. Qed.
Lemma plus_tab ni nj nk f g : plus3 (tab3 ni nj nk f) (tab3 ni nj nk g) = tab3 ni nj nk (fun i j k => f i j k + g i j k).
Proof. unfold plus3, tab3. rewrite map2_maps. apply map_ext. intros i. rewrite map2_maps. apply map_ext. intros j. rewrite map2_maps. reflexivity. Qed.
Lemma tri_minus ni nj nk f g a b c : length a = ni -> length b = nj -> length c = nk ->
  tri (minus3 (tab3 ni nj nk f) (tab3 ni nj nk g)) a b c = tri (tab3 ni nj nk f) a b c - tri (tab3 ni nj nk g) a b c.
Proof.
  intros La Lb Lc. rewrite minus_tab.
  rewrite !tri_tab by assumption. rewrite <- sq_sub. apply sq_ext. intros i _. rewrite <- sq_sub. apply sq_ext. intros j _. rewrite <- sq_sub. apply sq_ext. intros k _. ring.
Qed.

(* ---------- the values of forms ---------- *)
Lemma nbasis_ok k s : nbasis k s = length (cells_of k s).
Proof.
  unfold nbasis, cells_of. destruct k.
  - rewrite nums1_ok. unfold edges3. rewrite cells_len3. reflexivity.
  - rewrite nums2_ok. unfold faces3. rewrite cells_len3. reflexivity.
Qed.
Lemma rm_times k s m J orth c v : form_at k s m J c v ->
  on_grid m (fun x y z => det3 (J x y z) <> 0) -> (orth = true -> on_grid m (fun x y z => diagonal (J x y z))) ->
  match rm k s m J orth with (a, b, d) =>
    times a c = map (fun p => TfiModel.get (at_pt v p) cX) (points m) /\
    times b c = map (fun p => TfiModel.get (at_pt v p) cY) (points m) /\
    times d c = map (fun p => TfiModel.get (at_pt v p) cZ) (points m) end.
Proof.
  intros (L & P) N D. unfold cells_of in L. destruct k; cbn [rm].
  - assert (H := rm_1_ok s m J orth c L N D). destruct (rm_1 s m J orth) as [[a b] d]. destruct H as (-> & -> & ->).
    rewrite (recon1_map s m J orth c L), !map_map.
    assert (X : forall k p, In p (points m) -> TfiModel.get (value1 orth (iJ_at J p) (hats (hat1 s c) p)) k = TfiModel.get (at_pt v p) k).
    { intros k p Hp. assert (Np := in_points m p _ N Hp). assert (Pp := in_points m p _ P Hp). assert (Dp := fun E => in_points m p _ (D E) Hp).
      destruct p as [[x y] z]. change (iJ_at J (x, y, z)) with (ct_inverse_Jacobian_matrix (J x y z)). cbn [at_pt] in *. cbv beta in *.
      rewrite <- (recover1 _ _ _ Np Pp k). rewrite <- (recover1 _ _ _ Np (value1_pulls orth (J x y z) (hats (hat1 s c) (x, y, z)) Np Dp) k).
      apply csum_ext. intros e. rewrite get_hats. reflexivity. }
    repeat split; apply map_ext_in; intros p Hp; apply X; exact Hp.
  - assert (H := rm_2_ok s m J orth c L N D). destruct (rm_2 s m J orth) as [[a b] d]. destruct H as (-> & -> & ->).
    rewrite (recon2_map s m J orth c L), !map_map.
    assert (X : forall k p, In p (points m) -> TfiModel.get (value2 orth (iJ_at J p) (hats (hat2 s c) p)) k = TfiModel.get (at_pt v p) k).
    { intros k p Hp. assert (Np := in_points m p _ N Hp). assert (Pp := in_points m p _ P Hp). assert (Dp := fun E => in_points m p _ (D E) Hp).
      destruct p as [[x y] z]. change (iJ_at J (x, y, z)) with (ct_inverse_Jacobian_matrix (J x y z)). cbn [at_pt] in *. cbv beta in *.
      rewrite <- (recover2 _ _ _ Np Pp k). rewrite <- (recover2 _ _ _ Np (value2_pulls orth (J x y z) (hats (hat2 s c) (x, y, z)) Np Dp) k).
      apply csum_ext. intros e. rewrite get_hats. reflexivity. }
    repeat split; apply map_ext_in; intros p Hp; apply X; exact Hp.
Qed.
Definition sixth (q : Rule3) (dJ : list R) (f : pt -> R) : R :=
  rsum (combine (points (qmesh q)) (map2 Rmult (qw q) dJ)) (fun pw => f (fst pw) * snd pw).
Lemma combine_same {A B} (f : A -> B) l : combine l (map f l) = map (fun a => (a, f a)) l.
Proof. induction l as [|a l IH]; [reflexivity|]. cbn. rewrite IH. reflexivity. Qed.
Lemma combine_maps {A B C} (f : A -> B) (g : A -> C) l : combine (map f l) (map g l) = map (fun a => (f a, g a)) l.
Proof. induction l as [|a l IH]; [reflexivity|]. cbn. rewrite IH. reflexivity. Qed.
Lemma six (P : list pt) w (f g h : pt -> R) :
  rsum (combine (combine (combine (map f P) (map g P)) (map h P)) w) (fun r => match r with (x, y, z, t) => x * y * z * t end) =
  rsum (combine P w) (fun pw => f (fst pw) * g (fst pw) * h (fst pw) * snd pw).
Proof. rewrite !combine_maps, combine_map_l, ReconProofs.rsum_map. reflexivity. Qed.
Lemma cp3_tab kw ku ke sw su se q J orth dJ : exists f, cp3 kw ku ke sw su se q J orth dJ = tab3 (nbasis kw sw) (nbasis ku su) (nbasis ke se) f.
Proof.
  unfold cp3. destruct (rm kw sw (qmesh q) J orth) as [[wx wy] wz]. destruct (rm ku su (qmesh q) J orth) as [[u v] w]. destruct (rm ke se (qmesh q) J orth) as [[a b] c].
  unfold einsum4. rewrite !minus_tab, !plus_tab. eexists. reflexivity.
Qed.
Section Cross.
Variables (kw ku ke : kind) (sw su se : Space3) (q : Rule3) (J : ejac) (orth : bool) (cw cu ce : list R) (vw vu ve : R -> R -> R -> vec).
Hypotheses (N : nonzero_det q J) (D : orth_ok q J orth).
Hypotheses (Fw : form_at kw sw (qmesh q) J cw vw) (Fu : form_at ku su (qmesh q) J cu vu) (Fe : form_at ke se (qmesh q) J ce ve).
Definition cdot (p : pt) : R := dot (cross (at_pt vw p) (at_pt vu p)) (at_pt ve p).
Lemma tri_cp3 dJ : tri (cp3 kw ku ke sw su se q J orth dJ) cw cu ce = sixth q dJ cdot.
Proof.
  assert (Lw : length cw = nbasis kw sw) by (rewrite nbasis_ok; apply Fw). assert (Lu : length cu = nbasis ku su) by (rewrite nbasis_ok; apply Fu).
  assert (Le : length ce = nbasis ke se) by (rewrite nbasis_ok; apply Fe).
  assert (Tw := rm_times kw sw (qmesh q) J orth cw vw Fw N D). assert (Tu := rm_times ku su (qmesh q) J orth cu vu Fu N D). assert (Te := rm_times ke se (qmesh q) J orth ce ve Fe N D).
  unfold cp3. destruct (rm kw sw (qmesh q) J orth) as [[wx wy] wz]. destruct (rm ku su (qmesh q) J orth) as [[u v] w]. destruct (rm ke se (qmesh q) J orth) as [[a b] c].
  destruct Tw as (W0 & W1 & W2), Tu as (U0 & U1 & U2), Te as (E0 & E1 & E2).
  set (W := map2 Rmult (qw q) dJ).
  transitivity (tri (minus3 (einsum4 wy w a W (nbasis kw sw) (nbasis ku su) (nbasis ke se)) (einsum4 wz v a W (nbasis kw sw) (nbasis ku su) (nbasis ke se))) cw cu ce +
                tri (minus3 (einsum4 wz u b W (nbasis kw sw) (nbasis ku su) (nbasis ke se)) (einsum4 wx w b W (nbasis kw sw) (nbasis ku su) (nbasis ke se))) cw cu ce +
                tri (minus3 (einsum4 wx v c W (nbasis kw sw) (nbasis ku su) (nbasis ke se)) (einsum4 wy u c W (nbasis kw sw) (nbasis ku su) (nbasis ke se))) cw cu ce).
  { unfold einsum4. rewrite !minus_tab, plus_tab, !tri_plus by assumption. rewrite <- plus_tab, tri_plus by assumption. reflexivity. }
  unfold einsum4. rewrite !tri_minus by assumption.
  change (tab3 ?ni ?nj ?nk (fun i j k => lsum (map2 _ (combine (combine ?A ?B) ?C) ?w))) with (einsum4 A B C w ni nj nk).
  repeat match goal with |- context [tab3 ?ni ?nj ?nk (fun i j k => lsum (map2 _ (combine (combine ?A ?B) ?C) ?w))] => 
     change (tab3 ni nj nk (fun i j k => lsum (map2 (fun r x => match r with (a, b, c) => nth i a 0 * nth j b 0 * nth k c 0 * x end) (combine (combine A B) C) w))) with (einsum4 A B C w ni nj nk) end.
  rewrite !tri_einsum by assumption. rewrite W0, W1, W2, U0, U1, U2, E0, E1, E2, !six. unfold sixth. fold W.
  rewrite <- !rsum_minus, <- !rsum_plus. apply rsum_ext. intros [p t] _. cbn [fst snd]. unfold cdot.
  destruct (at_pt vw p) as [[w0 w1] w2], (at_pt vu p) as [[u0 u1] u2], (at_pt ve p) as [[e0 e1] e2]. unfold cross, dot, csum. cbn [TfiModel.get]. ring.
Qed.
Hypothesis Rq : rules_ok q.
Lemma triple_points : triple q J vw vu ve = rsum (wpts q) (fun wx => fst wx * (det3 (at_pt J (snd wx)) * cdot (snd wx))).
Proof. unfold triple. rewrite quad_points by exact Rq. apply rsum_ext. intros [w [[x y] z]] _. reflexivity. Qed.
Lemma len_qw : length (qw q) = length (points (qmesh q)).
Proof.
  destruct Rq as (R0 & R1 & R2). unfold rule_ok in *. unfold qw, weights3, points, mesh3, qmesh. cbn [mx my mz].
  rewrite !(flat_len _ _ (length (snd (q1 q)) * length (snd (q0 q)))); [lia| |].
  - intros k. rewrite (flat_len _ _ (length (snd (q0 q)))); [lia|]. intros. rewrite map_length. lia.
  - intros k. rewrite (flat_len _ _ (length (snd (q0 q)))); [lia|]. intros. rewrite map_length. lia.
Qed.
Lemma sixth_map (h : pt -> R) f : sixth q (map h (points (qmesh q))) f = rsum (wpts q) (fun wx => fst wx * (h (snd wx) * f (snd wx))).
Proof.
  unfold sixth, wpts. generalize (points (qmesh q)) (qw q). intros P w. revert w. induction P as [|p P IH]; intros [|a w]; try reflexivity.
  cbn [map map2 combine]. rewrite !rsum_cons, IH. cbn [fst snd]. ring.
Qed.
Theorem tri_F : tri (cp3 kw ku ke sw su se q J orth (detJ q J)) cw cu ce = triple q J vw vu ve.
Proof. rewrite tri_cp3, triple_points. unfold detJ. rewrite sixth_map. apply rsum_ext. intros wx _. rewrite det_ct. reflexivity. Qed.
Lemma len_pointsC m : length (pointsC m) = length (points m).
Proof.
  unfold pointsC, points, mesh3. rewrite (flat_len _ _ (length (my m) * length (mz m))). 2:{ intros x. rewrite (flat_len _ _ (length (mz m))); [lia|]. intros. apply map_length. }
  rewrite (flat_len _ _ (length (my m) * length (mx m))). 2:{ intros x. rewrite (flat_len _ _ (length (mx m))); [lia|]. intros. apply map_length. } lia.
Qed.
Lemma in_pointsC m p (Q : R -> R -> R -> Prop) : on_grid m Q -> In p (pointsC m) -> at_pt Q p.
Proof.
  intros H I. unfold pointsC in I. apply in_flat_map in I as (x & X & I). apply in_flat_map in I as (y & Y & I).
  apply in_map_iff in I as (z & <- & Z). apply H; assumption.
Qed.
Lemma map_const {A B} (d : B) (l : list A) : map (fun _ => d) l = repeat d (length l).
Proof. induction l as [|a l IH]; [reflexivity|]. cbn. rewrite IH. reflexivity. Qed.
Lemma detJC_const d : on_grid (qmesh q) (fun x y z => det3 (J x y z) = d) -> detJC q J = detJ q J.
Proof.
  intros H. unfold detJC, detJ. transitivity (repeat d (length (points (qmesh q)))); [rewrite <- len_pointsC|]; rewrite <- map_const; apply map_ext_in; intros p Hp.
  - assert (X := in_pointsC _ _ _ H Hp). destruct p as [[x y] z]. cbn [at_pt] in *. rewrite det_ct. exact X.
  - assert (X := in_points _ _ _ H Hp). destruct p as [[x y] z]. cbn [at_pt] in *. rewrite det_ct. symmetry. exact X.
Qed.
Theorem tri_C : constant_det q J -> tri (cross_product kw ku ke sw su se q J orth) cw cu ce = triple q J vw vu ve.
Proof. intros (d & H). unfold cross_product. rewrite (detJC_const d H). apply tri_F. Qed.
End Cross.
