(* Reconstruction of forms on a triangle. *)
From Coq Require Import Reals List Lia Lra Arith ZArith Bool.
From Verif Require Import TfiModel CtModel RingSum SpaceSpec DiscModel DiscSpec DiscProofs DiscProofs2 DiscProofs3 Disc2Model Disc2Spec Disc2Proofs.
From Verif Require Import ReconModel ReconSpec ReconProofs ReconProofs2 ReconProofs3 ReconProofs4.
From Verif Require Import TriModel TriSpec TriProofs TdiscModel TdiscSpec TreconModel TreconSpec.
Import ListNotations.
Open Scope R_scope.

(* ---------- kron ---------- *)
Definition prods (lj li : list nat) : list (nat * nat) := flat_map (fun j => map (fun i => (i, j)) li) lj.
Definition lrows (f : nat -> R -> R) (l : list nat) (x : list R) : list (list R) := map (fun i => map (f i) x) l.
Lemma node_lrows P x : node_basis P x = lrows (node_fn P) (seq 0 (S (pdeg P))) x.
Proof. unfold node_basis, lrows. rewrite Nat.add_1_r. reflexivity. Qed.
Lemma kron2 fy lj ys fx li xs :
  kron (lrows fy lj ys) (lrows fx li xs) = map (fun ij => map (fun q => fx (fst ij) (fst q) * fy (snd ij) (snd q)) (mesh2 xs ys)) (prods lj li).
Proof.
  unfold kron, lrows, prods. rewrite flat_map_map, map_flat_map. apply flat_map_ext'. intros j. rewrite !map_map. apply map_ext. intros i.
  rewrite flat_map_map. unfold mesh2. rewrite map_flat_map. apply flat_map_ext'. intros y. rewrite !map_map. apply map_ext. intros x. cbn [fst snd]. ring.
Qed.
Lemma prods_len lj li : length (prods lj li) = (length lj * length li)%nat.
Proof. unfold prods. apply flat_len. intros j. apply map_length. Qed.
Lemma mesh2_len xs ys : length (mesh2 xs ys) = (length xs * length ys)%nat.
Proof. unfold mesh2. rewrite (flat_len _ _ (length xs)); [lia|]. intros. apply map_length. Qed.
Lemma rsum_prods lj li f : rsum (prods lj li) f = rsum lj (fun j => rsum li (fun i => f (i, j))).
Proof. unfold prods. rewrite rsum_flat_map. apply rsum_ext. intros j _. apply rsum_map. Qed.
Lemma prods_num (f : nat * nat -> nat) n m : forall a b, (forall i j, (i < n)%nat -> (j < m)%nat -> f (i, (b + j)%nat) = (a + (i + j * n))%nat) ->
  map f (prods (seq b m) (seq 0 n)) = seq a (m * n).
Proof.
  induction m as [|m IH]; intros a b H; [reflexivity|]. cbn [seq Nat.mul]. unfold prods. cbn [flat_map]. fold (prods (seq (S b) m) (seq 0 n)).
  rewrite map_app, seq_app. f_equal.
  - rewrite map_map. rewrite (map_ext_in _ (fun i => (i + a)%nat)).
    + clear. induction n as [|n IH] in a |- *; [reflexivity|]. rewrite seq_S, map_app, IH. cbn [map Nat.add]. rewrite (Nat.add_comm n a).
      symmetry. apply seq_S.
    + intros i Hi. apply in_seq in Hi. specialize (H i O). rewrite Nat.add_0_r in H. rewrite H by lia. lia.
  - apply IH. intros i j Hi Hj. replace (S b + j)%nat with (b + S j)%nat by lia. rewrite H by lia. lia.
Qed.

(* ---------- lists of cells ---------- *)
Definition TN (p : nat) : list tnode := Sing :: map (fun ij => Nd (fst ij) (snd ij)) (prods (seq 1 p) (seq 0 (S p))).
Definition TX (p : nat) : list tedge := map (fun ij => Dx (fst ij) (snd ij)) (prods (seq 1 p) (seq 0 p)).
Definition TY (p : nat) : list tedge := map (fun ij => Dy (fst ij) (snd ij)) (prods (seq 0 p) (seq 0 (S p))).
Definition TF (p : nat) : list (nat * nat) := prods (seq 0 p) (seq 0 p).
Definition T1 (d : bool) (p : nat) : list tedge := if d then TY p else TX p.
(* the axis of the first and second block *)
Definition ax (o : orient) (b : bool) : bool := match o with Outer => negb b | Inner => b end.
Definition nn (p : nat) (k : tnode) : nat := Z.to_nat (dofn p k).
Definition ne (o : orient) (p : nat) (e : tedge) : nat := Z.to_nat (dofe o p e).
Definition nf (p : nat) (ij : nat * nat) : nat := Z.to_nat (tln2 p (fst ij) (snd ij)).
Lemma TN_num p : map (nn p) (TN p) = seq 0 (tnb0 p).
Proof.
  unfold TN, tnb0. cbn [map]. replace (p * (p + 1) + 1)%nat with (S (p * S p)) by lia. change (seq 0 (S (p * S p))) with (0%nat :: seq 1 (p * S p)). f_equal. rewrite map_map. apply prods_num. intros i j Hi Hj.
  cbn [fst snd Nat.add]. unfold nn, dofn. rewrite dofn_Nd. lia.
Qed.
Lemma TX_num o p : map (ne o p) (TX p) = seq (match o with Outer => p * (p + 1) | Inner => 0 end) (p * p).
Proof.
  unfold TX. rewrite map_map. apply prods_num. intros i j Hi Hj. cbn [fst snd Nat.add]. unfold ne. rewrite dofe_Dx. destruct o; lia.
Qed.
Lemma TY_num o p : map (ne o p) (TY p) = seq (match o with Outer => 0 | Inner => p * p end) (p * (p + 1)).
Proof.
  unfold TY. rewrite map_map. replace (p + 1)%nat with (S p) by lia. apply prods_num. intros i j Hi Hj. cbn [fst snd Nat.add]. unfold ne. rewrite dofe_Dy. destruct o; lia.
Qed.
Lemma TF_num p : map (nf p) (TF p) = seq 0 (p * p).
Proof. unfold TF. apply prods_num. intros i j Hi Hj. cbn [fst snd Nat.add]. unfold nf, tln2, aF. cbn [fst snd]. lia. Qed.
Lemma TN_len p : length (TN p) = tnb0 p.
Proof. rewrite <- (map_length (nn p)), TN_num, seq_length. reflexivity. Qed.
Lemma TX_len p : length (TX p) = (p * p)%nat.
Proof. rewrite <- (map_length (ne Inner p)), TX_num, seq_length. reflexivity. Qed.
Lemma TY_len p : length (TY p) = (p * (p + 1))%nat.
Proof. rewrite <- (map_length (ne Inner p)), TY_num, seq_length. reflexivity. Qed.
Lemma TF_len p : length (TF p) = tnb2 p.
Proof. rewrite <- (map_length (nf p)), TF_num, seq_length. reflexivity. Qed.
Lemma T1_first o p : length (T1 (ax o false) p) = tnum_x o p.
Proof. destruct o; cbn [ax negb T1 tnum_x]; [apply TY_len|apply TX_len]. Qed.
Definition TE (o : orient) (p : nat) : list tedge := T1 (ax o false) p ++ T1 (ax o true) p.
Lemma TE_num o p : map (ne o p) (TE o p) = seq 0 (tnb1 p).
Proof.
  unfold TE. rewrite map_app. destruct o; cbn [ax negb T1]; rewrite TX_num, TY_num; unfold tnb1.
  - rewrite (Nat.add_comm (p * p)), seq_app. reflexivity.
  - rewrite seq_app. reflexivity.
Qed.
Lemma TE_len o p : length (TE o p) = tnb1 p.
Proof. rewrite <- (map_length (ne o p)), TE_num, seq_length. reflexivity. Qed.
(* sums over a list numbered from a on *)
Lemma skipn_cases {A} a (c : list A) : skipn a c = match nth_error c a with Some x => x :: skipn (S a) c | None => [] end.
Proof. revert c. induction a as [|a IH]; intros [|x c]; try reflexivity. cbn [skipn nth_error]. rewrite IH. destruct (nth_error c a); reflexivity. Qed.
Lemma rsum_num {A} (num : A -> nat) (h : A -> R) (c : list R) L : forall a, map num L = seq a (length L) ->
  rsum (combine L (skipn a c)) (fun ac => snd ac * h (fst ac)) = rsum L (fun k => nth (num k) c 0 * h k).
Proof.
  induction L as [|k L IH]; intros a H; [reflexivity|]. cbn [map length seq] in H. pose proof (f_equal (hd O) H) as H1. pose proof (f_equal (@tl nat) H) as H2.
  cbn [hd tl] in H1, H2. rewrite skipn_cases. rewrite rsum_cons. destruct (nth_error c a) as [x|] eqn:E.
  - cbn [combine]. rewrite rsum_cons, (IH (S a) H2). cbn [fst snd]. rewrite H1, (nth_error_nth c a 0 E). reflexivity.
  - rewrite combine_nil. apply nth_error_None in E. rewrite H1, nth_overflow by exact E. rewrite (rsum_zero' L); [unfold rsum; cbn [fold_right]; ring|].
    intros b I. assert (In (num b) (seq (S a) (length L))) as I2 by (rewrite <- H2; apply in_map; exact I). apply in_seq in I2.
    rewrite nth_overflow by lia. ring.
Qed.

(* ---------- rows of values ---------- *)
Definition pf (P : Poly1) (a b : bool) (i j : nat) (q : R * R) : R := factor_fn P (a, i) (fst q) * factor_fn P (b, j) (snd q).
Definition nfn (P : Poly1) (k : tnode) (q : R * R) : R :=
  match k with Sing => rsum (seq 0 (S (pdeg P))) (fun i => pf P false false i 0 q) | Nd i j => pf P false false i j q end.
Definition efn (P : Poly1) (e : tedge) (q : R * R) : R := match e with Dx i j => pf P true false i j q | Dy i j => pf P false true i j q end.
Definition ffn (P : Poly1) (ij : nat * nat) (q : R * R) : R := pf P true true (fst ij) (snd ij) q.
Definition rows {A} (f : A -> R * R -> R) (L : list A) (pts : list (R * R)) : list (list R) := map (fun a => map (f a) pts) L.
Lemma lsum_rsum l : lsum l = rsum l (fun x => x).
Proof. induction l as [|x l IH]; [reflexivity|]. rewrite rsum_cons, <- IH. reflexivity. Qed.
Lemma skip1_rows f n x : skipn 1 (lrows f (seq 0 (S n)) x) = lrows f (seq 1 n) x.
Proof. reflexivity. Qed.
Lemma tbasis0_rows P xi et : tbasis0 P xi et = rows (nfn P) (TN (pdeg P)) (mesh2 xi et).
Proof.
  unfold tbasis0, rows, TN. cbn [map]. rewrite !node_lrows, skip1_rows. f_equal.
  - change (firstn 1 (lrows (node_fn P) (seq 0 (S (pdeg P))) et)) with (lrows (node_fn P) [0%nat] et). rewrite kron2. unfold sum_axis0.
    apply map_seq_nth. intros j q E. rewrite map_map, lsum_rsum, rsum_map. unfold prods. cbn [flat_map]. rewrite app_nil_r, rsum_map.
    cbn [nfn]. apply rsum_ext. intros i _. apply nth_error_nth. rewrite nth_error_map, E. reflexivity.
  - rewrite kron2, map_map. reflexivity.
Qed.
Lemma tbasis1_rows o P xi et : tbasis1 o P xi et =
  (rows (efn P) (T1 (ax o false) (pdeg P)) (mesh2 xi et), rows (efn P) (T1 (ax o true) (pdeg P)) (mesh2 xi et)).
Proof.
  unfold tbasis1. rewrite !node_lrows, skip1_rows. change (edge_basis P xi) with (lrows (edge_fn P) (seq 0 (pdeg P)) xi).
  change (edge_basis P et) with (lrows (edge_fn P) (seq 0 (pdeg P)) et). rewrite !kron2.
  destruct o; cbn [ax negb T1]; unfold rows, TX, TY; rewrite !map_map; reflexivity.
Qed.
Lemma tbasis2_rows P xi et : tbasis2 P xi et = rows (ffn P) (TF (pdeg P)) (mesh2 xi et).
Proof.
  unfold tbasis2. change (edge_basis P xi) with (lrows (edge_fn P) (seq 0 (pdeg P)) xi).
  change (edge_basis P et) with (lrows (edge_fn P) (seq 0 (pdeg P)) et). rewrite kron2. reflexivity.
Qed.
Definition sgn (o : orient) (p : nat) (M : smap) (e : nat) (k : tedge) : R := IZR (transition o p M e (ne o p k)).
Definition sfn (o : orient) (P : Poly1) (M : smap) (e : nat) (k : tedge) (q : R * R) : R := sgn o (pdeg P) M e k * efn P k q.
Lemma map2_seq {A B} (f : nat -> A -> B) (num : A -> nat) (L : list A) : forall a, map num L = seq a (length L) ->
  map2 f (seq a (length L)) L = map (fun k => f (num k) k) L.
Proof.
  induction L as [|k L IH]; intros a H; [reflexivity|]. cbn [map length seq map2] in *.
  pose proof (f_equal (hd O) H) as H1. pose proof (f_equal (@tl nat) H) as H2. cbn [hd tl] in H1, H2. rewrite (IH (S a) H2), H1. reflexivity.
Qed.
Lemma map2_map_r {A B C D} (f : A -> B -> C) (g : D -> B) l m : map2 f l (map g m) = map2 (fun a d => f a (g d)) l m.
Proof. revert m. induction l as [|a l IH]; intros [|d m]; try reflexivity. cbn. rewrite IH. reflexivity. Qed.
Lemma tbasis1_at_rows o P M e xi et : tbasis1_at o P M e xi et =
  (rows (sfn o P M e) (T1 (ax o false) (pdeg P)) (mesh2 xi et), rows (sfn o P M e) (T1 (ax o true) (pdeg P)) (mesh2 xi et)).
Proof.
  unfold tbasis1_at. rewrite tbasis1_rows. cbv zeta.
  set (D := map2 _ _ _). assert (E : D = rows (sfn o P M e) (TE o (pdeg P)) (mesh2 xi et)).
  { unfold D. replace (rows (efn P) (T1 (ax o false) (pdeg P)) (mesh2 xi et) ++ rows (efn P) (T1 (ax o true) (pdeg P)) (mesh2 xi et))
      with (rows (efn P) (TE o (pdeg P)) (mesh2 xi et)) by (unfold rows, TE; apply map_app).
    unfold rows. rewrite map_length, map2_map_r. rewrite (map2_seq _ (ne o (pdeg P)) (TE o (pdeg P)) 0); [|rewrite TE_num, TE_len; reflexivity].
    apply map_ext. intros k. rewrite map_map. reflexivity. }
  rewrite E. unfold rows, TE. rewrite map_app, map_length. f_equal.
  - rewrite firstn_app, map_length, Nat.sub_diag. cbn [firstn]. rewrite app_nil_r. apply firstn_all2. rewrite map_length. lia.
  - rewrite skipn_app, map_length, Nat.sub_diag, skipn_all2; [reflexivity|]. rewrite map_length. lia.
Qed.

(* ---------- the functions of cochains as sums over the lists ---------- *)
Lemma seq_cons n : seq 0 (S n) = 0%nat :: seq 1 n.
Proof. reflexivity. Qed.
Lemma that0_list P c q : that0 P c (fst q) (snd q) = rsum (TN (pdeg P)) (fun k => nth (nn (pdeg P) k) c 0 * nfn P k q).
Proof.
  unfold TN. rewrite rsum_cons, rsum_map, rsum_prods. unfold that0, tsum2. cbn [size]. rewrite (seq_cons (pdeg P)) at 1. rewrite rsum_cons. f_equal.
  - cbn [nfn]. rewrite (Rmult_comm (nth _ _ _)), rsum_scal. apply rsum_ext. intros i _. unfold node_val. cbn [node_at]. fold (nn (pdeg P) Sing).
    unfold pf. ring.
  - apply rsum_ext. intros j Hj. apply rsum_ext. intros i _. apply in_seq in Hj. destruct j as [|j]; [lia|]. reflexivity.
Qed.
Lemma that1_list o P M e c d q : that1 o P M e c d (fst q) (snd q) = rsum (T1 d (pdeg P)) (fun k => nth (ne o (pdeg P) k) c 0 * sfn o P M e k q).
Proof.
  unfold that1, T1, tsum2. destruct d; unfold TX, TY; rewrite rsum_map, rsum_prods; cbn [size fst snd].
  - apply rsum_ext. intros j _. apply rsum_ext. intros i _. unfold edge_val, sfn, sgn, ne. cbn [efn]. unfold pf. ring.
  - rewrite (seq_cons (pdeg P)), rsum_cons. rewrite (rsum_zero' (seq 0 (pdeg P))); [|intros i _; cbn [edge_val]; ring]. rewrite Rplus_0_l.
    apply rsum_ext. intros j Hj. apply rsum_ext. intros i _. apply in_seq in Hj. destruct j as [|j]; [lia|]. unfold edge_val, sfn, sgn, ne. cbn [efn]. unfold pf. ring.
Qed.
Lemma that2_list P c q : that2 P c (fst q) (snd q) = rsum (TF (pdeg P)) (fun k => nth (nf (pdeg P) k) c 0 * ffn P k q).
Proof. unfold TF. rewrite rsum_prods. reflexivity. Qed.

(* ---------- einsum ---------- *)
Lemma einsum2 {A} (h : A -> R * R -> R) (L : list A) c (pts : list (R * R)) :
  einsum_c (rows h L pts) c (length pts) = map (fun q => rsum (combine L c) (fun ac => snd ac * h (fst ac) q)) pts.
Proof.
  unfold einsum_c, rows. apply map_seq_nth. intros j q E. rewrite lsum_map2, combine_map_l, rsum_map. apply rsum_ext. intros [a x] _.
  cbn [fst snd]. erewrite (nth_error_nth (map (h a) pts) j 0) by (rewrite nth_error_map, E; reflexivity). ring.
Qed.
Lemma sum0 P c q : rsum (combine (TN (pdeg P)) c) (fun ac => snd ac * nfn P (fst ac) q) = that0 P c (fst q) (snd q).
Proof. rewrite that0_list. apply (rsum_num (nn (pdeg P)) (fun k => nfn P k q) c (TN (pdeg P)) 0). rewrite TN_num, TN_len. reflexivity. Qed.
Lemma sum2 P (h : nat * nat -> R) c : rsum (combine (TF (pdeg P)) c) (fun ac => snd ac * h (fst ac)) = rsum (TF (pdeg P)) (fun k => nth (nf (pdeg P) k) c 0 * h k).
Proof. apply (rsum_num (nf (pdeg P)) h c (TF (pdeg P)) 0). rewrite TF_num, TF_len. reflexivity. Qed.
Lemma T1_num o (b : bool) p : map (ne o p) (T1 (ax o b) p) = seq (if b then tnum_x o p else 0) (length (T1 (ax o b) p)).
Proof. destruct o, b; cbn [ax negb T1 tnum_x]; rewrite ?TX_num, ?TY_num, ?TX_len, ?TY_len; reflexivity. Qed.
Lemma sum1_first o P M e c q :
  rsum (combine (T1 (ax o false) (pdeg P)) (firstn (tnum_x o (pdeg P)) c)) (fun ac => snd ac * sfn o P M e (fst ac) q) = that1 o P M e c (ax o false) (fst q) (snd q).
Proof.
  rewrite that1_list, <- T1_first, combine_firstn_l. apply (rsum_num (ne o (pdeg P)) (fun k => sfn o P M e k q) c _ 0). apply (T1_num o false).
Qed.
Lemma sum1_second o P M e c q :
  rsum (combine (T1 (ax o true) (pdeg P)) (skipn (tnum_x o (pdeg P)) c)) (fun ac => snd ac * sfn o P M e (fst ac) q) = that1 o P M e c (ax o true) (fst q) (snd q).
Proof.
  rewrite that1_list. apply (rsum_num (ne o (pdeg P)) (fun k => sfn o P M e k q) c _ (tnum_x o (pdeg P))). apply (T1_num o true).
Qed.

(* ---------- reconstruction ---------- *)
Lemma map_array2 {A} xi et (h : R * R -> A) (V : R -> R -> A -> Prop) : on_grid2 xi et (fun x y => V x y (h (x, y))) -> array2 xi et (map h (mesh2 xi et)) V.
Proof.
  intros H. split; [rewrite map_length; apply mesh2_len|]. intros i j x y X Y. exists (h (x, y)). split.
  - rewrite nth_error_map. unfold mesh2. replace (nth_error (flat_map (fun y => map (fun x => (x, y)) xi) et) (i + j * length xi)) with (Some (x, y)); [reflexivity|].
    symmetry. assert (Li : (i < length xi)%nat) by (apply nth_error_Some; rewrite X; discriminate).
    clear H. revert j Y. induction et as [|y' et IH]; intros [|j] Y; try discriminate.
    + injection Y as ->. cbn [flat_map Nat.mul]. rewrite Nat.add_0_r, nth_error_app1 by (rewrite map_length; exact Li). rewrite nth_error_map, X. reflexivity.
    + cbn [flat_map]. rewrite nth_error_app2; rewrite map_length; [|lia]. replace (i + S j * length xi - length xi)%nat with (i + j * length xi)%nat by lia.
      apply IH. exact Y.
  - apply H; eapply nth_error_In; eassumption.
Qed.
Lemma trecon0_map P xi et c : trecon0 P xi et c = map (fun q => that0 P c (fst q) (snd q)) (mesh2 xi et).
Proof. unfold trecon0. rewrite tbasis0_rows, einsum2. apply map_ext. intros q. apply sum0. Qed.
Theorem trecon0_ok P xi et c : array2 xi et (trecon0 P xi et c) (fun x y v => v = that0 P c x y).
Proof. rewrite trecon0_map. apply map_array2. intros x y _ _. reflexivity. Qed.
Lemma combine_maps {A B C} (f : A -> B) (g : A -> C) l : combine (map f l) (map g l) = map (fun a => (f a, g a)) l.
Proof. induction l as [|a l IH]; [reflexivity|]. cbn. rewrite IH. reflexivity. Qed.
Lemma map2_self {A B C} (f : A -> B -> C) (g : A -> B) l : map2 f l (map g l) = map (fun a => f a (g a)) l.
Proof. induction l as [|a l IH]; [reflexivity|]. cbn. rewrite IH. reflexivity. Qed.
Lemma tuv_map o P M e xi et c : tuv o P M e xi et c =
  map (fun q => (that1 o P M e c (ax o false) (fst q) (snd q), that1 o P M e c (ax o true) (fst q) (snd q))) (mesh2 xi et).
Proof.
  unfold tuv. rewrite tbasis1_at_rows, !einsum2. rewrite combine_maps. apply map_ext. intros q. rewrite sum1_first, sum1_second. reflexivity.
Qed.
Definition val1 (o : orient) P M e J c (q : R * R) : R * R :=
  tvalue1 o (tiJ J q) (that1 o P M e c (ax o false) (fst q) (snd q), that1 o P M e c (ax o true) (fst q) (snd q)).
Lemma trecon1_map o P M e xi et J c : trecon1 o P M e xi et J c = map (val1 o P M e J c) (mesh2 xi et).
Proof. unfold trecon1. rewrite tuv_map, map2_self. reflexivity. Qed.
Lemma value_pulls o (J : mat22) (u : bool -> R) : det2 J <> 0 -> tpulls1 o J (tvalue1 o (ct2_inverse J) (u (ax o false), u (ax o true))) u.
Proof.
  destruct J as [[a b] [c d]]. unfold det2, cross2, mcol, comp. cbn [fst snd]. intros N k.
  assert (N1 : a * d - b * c <> 0) by (intros E; apply N; rewrite <- E; ring).
  destruct o; cbn [ax negb tvalue1 ct2_inverse]; unfold dot2, cross2, mcol, comp; destruct k; cbn [fst snd]; field; exact N1.
Qed.
Theorem trecon1_ok o P M e xi et J c : on_grid2 xi et (fun x y => det2 (J x y) <> 0) ->
  array2 xi et (trecon1 o P M e xi et J c) (fun x y v => tpulls1 o (J x y) v (fun d => that1 o P M e c d x y)).
Proof.
  intros N. rewrite trecon1_map. apply map_array2. intros x y X Y. unfold val1. cbn [fst snd]. unfold tiJ, at2. cbn [fst snd].
  apply (value_pulls o (J x y) (fun d => that1 o P M e c d x y)). apply N; assumption.
Qed.
Lemma map2_rows {A} (f : A -> R * R -> R) L (g : R * R -> R) pts : map (fun row => map2 Rmult row (map g pts)) (rows f L pts) = rows (fun a q => f a q * g q) L pts.
Proof. unfold rows. rewrite map_map. apply map_ext. intros a. clear. induction pts as [|q pts IH]; [reflexivity|]. cbn. rewrite IH. reflexivity. Qed.
Lemma trecon2_map P xi et J c : trecon2 P xi et J c = map (fun q => that2 P c (fst q) (snd q) * ct2_inverse_Jacobian (tiJ J q)) (mesh2 xi et).
Proof.
  unfold trecon2. rewrite tbasis2_rows, map2_rows, einsum2. apply map_ext. intros q. rewrite that2_list, rsum_scal.
  rewrite (sum2 P (fun k => ffn P k q * ct2_inverse_Jacobian (tiJ J q)) c). apply rsum_ext. intros k _. ring.
Qed.
Lemma det2_ct J : det2 J = ct2_Jacobian J.
Proof. destruct J as [[a b] [c d]]. unfold det2, cross2, mcol, comp. cbn [fst snd ct2_Jacobian]. ring. Qed.
Lemma inv_det (J : mat22) : det2 J <> 0 -> ct2_inverse_Jacobian (ct2_inverse J) = / det2 J.
Proof. rewrite det2_ct. destruct J as [[a b] [c d]]. cbn [ct2_Jacobian ct2_inverse ct2_inverse_Jacobian]. intros N. field. exact N. Qed.
Theorem trecon2_ok P xi et J c : on_grid2 xi et (fun x y => det2 (J x y) <> 0) ->
  array2 xi et (trecon2 P xi et J c) (fun x y v => tpulls2 (J x y) v (that2 P c x y)).
Proof.
  intros N. rewrite trecon2_map. apply map_array2. intros x y X Y. unfold tpulls2, tiJ, at2. cbn [fst snd]. rewrite inv_det by (apply N; assumption).
  field. apply N; assumption.
Qed.

(* ---------- reconstruction matrices ---------- *)
Lemma transpose2 {A} (f : A -> R * R -> R) L pts : transpose (rows f L pts) (length pts) = map (fun q => map (fun a => f a q) L) pts.
Proof.
  unfold transpose, rows. apply map_seq_nth. intros j q E. rewrite map_map. apply map_ext. intros a. apply nth_error_nth. rewrite nth_error_map, E. reflexivity.
Qed.
Lemma row_times {A} (L : list A) (g : A -> R) c : rsum (combine (map g L) c) (fun ab => fst ab * snd ab) = rsum (combine L c) (fun ac => snd ac * g (fst ac)).
Proof. rewrite combine_map_l, rsum_map. apply rsum_ext. intros [a x] _. cbn [fst snd]. ring. Qed.
Theorem trm0_ok P xi et c : times (trm0 P xi et) c = trecon0 P xi et c.
Proof.
  unfold trm0. rewrite tbasis0_rows, transpose2, trecon0_map. unfold times. rewrite map_map. apply map_ext. intros q. rewrite row_times. apply sum0.
Qed.
Lemma scale2 {A} (f : A -> R * R -> R) L (g : R * R -> R) pts :
  scale_rows (map (fun q => map (fun a => f a q) L) pts) (map g pts) = map (fun q => map (fun a => f a q * g q) L) pts.
Proof.
  unfold scale_rows. induction pts as [|q pts IH]; [reflexivity|]. cbn [map map2]. rewrite IH. f_equal. rewrite map_map. reflexivity.
Qed.
Theorem trm2_ok P xi et J c : times (trm2 P xi et J) c = trecon2 P xi et J c.
Proof.
  unfold trm2. rewrite tbasis2_rows, transpose2, (scale2 (ffn P)), trecon2_map. unfold times. rewrite map_map. apply map_ext. intros q.
  rewrite row_times, that2_list, rsum_scal. rewrite (sum2 P (fun k => ffn P k q * ct2_inverse_Jacobian (tiJ J q)) c). apply rsum_ext. intros k _. ring.
Qed.
Lemma hstack2_map {A} (f g : A -> list R) l : hstack2 (map f l) (map g l) = map (fun a => f a ++ g a) l.
Proof. unfold hstack2. induction l as [|a l IH]; [reflexivity|]. cbn. rewrite IH. reflexivity. Qed.
Lemma row_times_app {A} (L L' : list A) (g g' : A -> R) c : rsum (combine (map g L ++ map g' L') c) (fun ab => fst ab * snd ab) =
  rsum (combine L (firstn (length L) c)) (fun ac => snd ac * g (fst ac)) + rsum (combine L' (skipn (length L) c)) (fun ac => snd ac * g' (fst ac)).
Proof. rewrite combine_app_l, rsum_app, map_length, !row_times, combine_firstn_l. reflexivity. Qed.
Lemma opp_rows {A} (f : A -> R * R -> R) L pts :
  map (map Ropp) (map (fun q => map (fun a => f a q) L) pts) = map (fun q => map (fun a => - f a q) L) pts.
Proof. rewrite map_map. apply map_ext. intros q. rewrite map_map. reflexivity. Qed.
Lemma fac_out {A} (l : list (A * R)) (f : A -> R) k : rsum l (fun ac => snd ac * (f (fst ac) * k)) = rsum l (fun ac => snd ac * f (fst ac)) * k.
Proof. rewrite rsum_scal. apply rsum_ext. intros. ring. Qed.
Lemma fac_out' {A} (l : list (A * R)) (f : A -> R) k : rsum l (fun ac => snd ac * - (f (fst ac) * k)) = - (rsum l (fun ac => snd ac * f (fst ac)) * k).
Proof. replace (- (rsum l (fun ac => snd ac * f (fst ac)) * k)) with (rsum l (fun ac => snd ac * f (fst ac)) * - k) by ring. rewrite rsum_scal. apply rsum_ext. intros. ring. Qed.
Theorem trm1_ok o P M e xi et J c : match trm1 o P M e xi et J with (a, b) => components2 (trecon1 o P M e xi et J c) (times a c) (times b c) end.
Proof.
  unfold trm1. rewrite tbasis1_at_rows, !transpose2, !map_map, trecon1_map. unfold components2. rewrite !map_map. unfold times.
  destruct o; rewrite !(scale2 (sfn _ P M e)), ?(opp_rows (fun a q => sfn _ P M e a q * _)), !hstack2_map, !map_map; split; apply map_ext; intros q;
    rewrite row_times_app, T1_first, ?(fac_out _ (fun a => sfn _ P M e a q)), ?(fac_out' _ (fun a => sfn _ P M e a q)), sum1_first, sum1_second; unfold val1, tvalue1; destruct (tiJ J q) as [[a00 a01] [a10 a11]];
    cbn [fst snd]; ring.
Qed.
