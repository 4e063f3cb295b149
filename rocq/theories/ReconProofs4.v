(* Mass and wedge matrices as integrals. *)
From Coq Require Import Reals List ZArith Lia Lra Bool.
From Verif Require Import TfiModel TfiSpec TfiProofs CtModel CtSpec CtProofs RingSum SpaceModel SpaceSpec SpaceProofs.
From Verif Require Import DiscModel DiscSpec DiscProofs DiscProofs2 DiscProofs3 ReconModel ReconSpec ReconProofs ReconProofs2 ReconProofs3.

Import ListNotations.
Open Scope R_scope.

(* ---------- at one point ---------- *)
Lemma recover1 J v u : det3 J <> 0 -> pulls1 J v u -> forall k, csum (fun d => ment d k (ct_inverse_Jacobian_matrix J) * u d) = TfiModel.get v k.
Proof.
  intros N P k. unfold csum. rewrite <- (P cX), <- (P cY), <- (P cZ). unfold ct_inverse_Jacobian_matrix. rewrite det_ct. open_mat J. destruct v as [[v0 v1] v2].
  unfold dot, csum, col, ent, mrow, ment, det3 in *. destruct k; cbn [TfiModel.get]; field; exact N.
Qed.
Lemma recover2 J v u : det3 J <> 0 -> pulls2 J v u -> forall k, csum (fun d => cof2 k d (ct_inverse_Jacobian_matrix J) * u d) = TfiModel.get v k.
Proof.
  intros N P k. unfold csum. rewrite <- (P cX), <- (P cY), <- (P cZ). unfold ct_inverse_Jacobian_matrix. rewrite det_ct. open_mat J. destruct v as [[v0 v1] v2].
  unfold dot, csum, cross, col, ent, mrow, cof2, det3 in *. cbn [next]. destruct k; cbn [TfiModel.get]; field; exact N.
Qed.
Lemma fac1_dot J vo vs u u' : det3 J <> 0 -> pulls1 J vo u -> pulls1 J vs u' ->
  csum (fun d => csum (fun e => fac1 d e J * (u d * u' e))) = det3 J * dot vo vs.
Proof.
  intros N P P'. unfold dot. unfold csum at 3. rewrite <- !(recover1 J vo u N P), <- !(recover1 J vs u' N P').
  unfold fac1. rewrite det_ct. generalize (det3 J). intros D. generalize (ct_inverse_Jacobian_matrix J). intros m. clear.
  destruct m as [[[[a b] c] [[d e] f]] [[g h] i]]. unfold csum, ment, ct_inverse_metric_matrix. cbn [TfiModel.get]. ring.
Qed.
Lemma fac2_dot J vo vs u u' : det3 J <> 0 -> pulls2 J vo u -> pulls2 J vs u' ->
  csum (fun d => csum (fun e => fac2 false d e J * (u d * u' e))) = det3 J * dot vo vs.
Proof.
  intros N P P'. unfold dot. unfold csum at 3. rewrite <- !(recover2 J vo u N P), <- !(recover2 J vs u' N P').
  unfold fac2. rewrite det_ct. generalize (det3 J). intros D. generalize (ct_inverse_Jacobian_matrix J). intros m. clear.
  destruct m as [[[[a b] c] [[d e] f]] [[g h] i]]. unfold csum, cof2, ct_inverse_metric_matrix. ring.
Qed.
Lemma fac1_diag J : det3 J <> 0 -> diagonal J -> forall d e, d <> e -> fac1 d e J = 0.
Proof.
  intros N D d e H. unfold fac1. destruct (inv_diag J D N) as (a & b & c & _ & -> & _). unfold ment, ct_inverse_metric_matrix.
  destruct d, e; try congruence; cbn [TfiModel.get]; ring.
Qed.
Lemma fac2_diag J : det3 J <> 0 -> diagonal J -> forall d e, fac2 false d e J = if ceqb d e then fac2 true d e J else 0.
Proof.
  intros N D d e. unfold fac2. destruct (inv_diag J D N) as (a & b & c & _ & -> & _). unfold ct_inverse_metric_matrix.
  destruct d, e; cbn [ceqb]; ring.
Qed.
Lemma fac1_sym J d e : fac1 d e J = fac1 e d J.
Proof. unfold fac1. f_equal. unfold ct_inverse_metric_matrix. destruct (ct_inverse_Jacobian_matrix J) as [[[[a b] c] [[d' e'] f]] [[g h] i]]. destruct d, e; reflexivity. Qed.
Lemma fac2_sym o J d e : fac2 o d e J = fac2 o e d J.
Proof. unfold fac2. destruct (ct_inverse_metric_matrix (ct_inverse_Jacobian_matrix J)) as [[[[a b] c] [[d' e'] f]] [[g h] i]]. destruct d, e; reflexivity. Qed.
Lemma wedge_dot J v2 v1 u u' : pulls2 J v2 u -> pulls1 J v1 u' -> csum (fun d => u d * u' d) = det3 J * dot v2 v1.
Proof.
  intros P P'. unfold csum. rewrite <- (P cX), <- (P cY), <- (P cZ), <- (P' cX), <- (P' cY), <- (P' cZ). open_mat J. destruct v2 as [[x0 x1] x2], v1 as [[y0 y1] y2].
  unfold dot, csum, cross, col, ent, mrow, det3. cbn [next TfiModel.get]. ring.
Qed.

(* ---------- sums over points ---------- *)
Lemma combine_app' {A B} (l l' : list A) (m m' : list B) : length l = length m -> combine (l ++ l') (m ++ m') = combine l m ++ combine l' m'.
Proof. revert m. induction l as [|a l IH]; intros [|b m] L; try discriminate; [reflexivity|]. cbn. rewrite IH; [reflexivity|]. cbn in L. lia. Qed.
Lemma combine_flat {A B C D} (f : A -> list C) (g : B -> list D) l m : length l = length m -> (forall a b, In a l -> In b m -> length (f a) = length (g b)) ->
  combine (flat_map f l) (flat_map g m) = flat_map (fun ab => combine (f (fst ab)) (g (snd ab))) (combine l m).
Proof.
  revert m. induction l as [|a l IH]; intros [|b m] L H; try discriminate; [reflexivity|]. cbn [flat_map combine]. rewrite combine_app' by (apply H; left; reflexivity).
  rewrite IH; [reflexivity|cbn in L; lia|]. intros a' b' Ia Ib. apply H; right; assumption.
Qed.
Lemma combine_maps2 {A B C D} (f : A -> C) (g : B -> D) l m : combine (map f l) (map g m) = map (fun ab => (f (fst ab), g (snd ab))) (combine l m).
Proof. revert m. induction l as [|a l IH]; intros [|b m]; try reflexivity. cbn. rewrite IH. reflexivity. Qed.
Lemma flat_len' {A B} (f : A -> list B) l n : (forall a, length (f a) = n) -> length (flat_map f l) = (length l * n)%nat.
Proof. apply flat_len. Qed.
Lemma rsum_swap_c (w x : list R) f : rsum (combine w x) f = rsum (combine x w) (fun q => f (snd q, fst q)).
Proof. revert x. induction w as [|a w IH]; intros [|b x]; try reflexivity. cbn [combine]. rewrite !rsum_cons, IH. reflexivity. Qed.
Lemma quad_points q h : rules_ok q -> quad3 q h = rsum (combine (qw q) (points (qmesh q))) (fun wx => fst wx * at_pt h (snd wx)).
Proof.
  intros (R0 & R1 & R2). unfold rule_ok in *. unfold qw, points, qmesh, weights3, mesh3. cbn [mx my mz].
  rewrite combine_flat; [|lia|].
  2:{ intros a b _ _. rewrite (flat_len' _ _ (length (snd (q0 q)))), (flat_len' _ _ (length (snd (q0 q)))); [lia| |]; intros; rewrite map_length; lia. }
  unfold quad3. rewrite rsum_flat_map.
  rewrite (rsum_swap (combine (fst (q0 q)) (snd (q0 q)))).
  erewrite rsum_ext by (intros b _; apply (rsum_swap (combine (fst (q0 q)) (snd (q0 q))))).
  rewrite (rsum_swap (combine (fst (q1 q)) (snd (q1 q)))).
  rewrite (rsum_swap_c (snd (q2 q))). apply rsum_ext. intros [z w2] _. cbn [fst snd].
  rewrite combine_flat; [|lia|].
  2:{ intros a b _ _. rewrite !map_length. lia. }
  rewrite rsum_flat_map. rewrite (rsum_swap_c (snd (q1 q))). apply rsum_ext. intros [y w1] _. cbn [fst snd].
  rewrite combine_maps2, ReconProofs.rsum_map. rewrite (rsum_swap_c (snd (q0 q))). apply rsum_ext. intros [x w0] _. cbn [fst snd at_pt]. ring.
Qed.

(* ---------- matrices with entries K o t ---------- *)
Definition kmat {A B} (L : list A) (M : list B) (K : A -> B -> R) : list (list R) := map (fun o => map (K o) M) L.
Definition entry {A B} (WP : list (R * pt)) (f : pt -> R) (fo : A -> pt -> R) (ft : B -> pt -> R) (o : A) (t : B) : R :=
  rsum WP (fun wx => fst wx * f (snd wx) * (fo o (snd wx) * ft t (snd wx))).
Lemma kmat_ext {A B} (L : list A) (M : list B) K K' : (forall o t, In o L -> In t M -> K o t = K' o t) -> kmat L M K = kmat L M K'.
Proof. intros H. unfold kmat. apply map_ext_in. intros o Io. apply map_ext_in. intros t It. apply H; assumption. Qed.
Lemma gram_kmat {A B} (W : list R) (P : list pt) (f : pt -> R) (fo : A -> pt -> R) (ft : B -> pt -> R) L M :
  gram (map2 (fun a x => a * f x) W P) (map (fun o => map (fo o) P) L) (map (fun t => map (ft t) P) M) =
  kmat L M (entry (combine W P) f fo ft).
Proof.
  unfold gram, kmat. rewrite map_map. apply map_ext. intros o. rewrite map_map. apply map_ext. intros t.
  rewrite map2_maps. unfold entry. revert P. induction W as [|w W IH]; intros [|x P]; try reflexivity.
  cbn [map2 map combine]. rewrite rsum_cons, <- IH. reflexivity.
Qed.
Lemma block0_kmat {A B} (WP : list (R * pt)) (fo : A -> pt -> R) (ft : B -> pt -> R) (P : list pt) L M :
  block0 (map (fun o => map (fo o) P) L) (map (fun t => map (ft t) P) M) = kmat L M (entry WP (fun _ => 0) fo ft).
Proof.
  unfold block0, kmat. rewrite map_map. apply map_ext. intros o. rewrite map_map. apply map_ext. intros t.
  unfold entry. symmetry. apply rsum_zero'. intros wx _. ring.
Qed.
Lemma transpose_kmat {A B} (L : list A) (M : list B) K : transpose (kmat L M K) (length M) = kmat M L (fun t o => K o t).
Proof.
  unfold transpose, kmat. apply (map_seq_nth M). intros j t E. rewrite map_map. apply map_ext. intros o.
  apply nth_error_nth. rewrite nth_error_map, E. reflexivity.
Qed.
Lemma hstack_kmat {A B} (L : list A) (M M' M'' : list B) K : hstack3 (kmat L M K) (kmat L M' K) (kmat L M'' K) = kmat L (M ++ M' ++ M'') K.
Proof.
  unfold hstack3, kmat. rewrite !map2_maps. apply map_ext. intros o. rewrite !map_app. reflexivity.
Qed.
Lemma bmat_kmat {A B} (L L' L'' : list A) (M M' M'' : list B) K :
  bmat3 (kmat L M K) (kmat L M' K) (kmat L M'' K) (kmat L' M K) (kmat L' M' K) (kmat L' M'' K) (kmat L'' M K) (kmat L'' M' K) (kmat L'' M'' K) =
  kmat (L ++ L' ++ L'') (M ++ M' ++ M'') K.
Proof. unfold bmat3. rewrite !hstack_kmat. unfold kmat. rewrite !map_app. reflexivity. Qed.
Lemma rsum_combine_swap {A B} (l : list A) (m : list B) f : rsum (combine l m) f = rsum (combine m l) (fun q => f (snd q, fst q)).
Proof. revert m. induction l as [|a l IH]; intros [|b m]; try reflexivity. cbn [combine]. rewrite !rsum_cons, IH. reflexivity. Qed.
Lemma bilinear_kmat {A B} (L : list A) (M : list B) K co cs : bilinear (kmat L M K) co cs =
  rsum (combine L co) (fun oc => rsum (combine M cs) (fun tc => snd oc * snd tc * K (fst oc) (fst tc))).
Proof.
  unfold bilinear, times, kmat. rewrite map_map, (rsum_combine_swap co), combine_map_l, ReconProofs.rsum_map. apply rsum_ext. intros [o c] _. cbn [fst snd].
  rewrite Rmult_comm, rsum_scal, combine_map_l, ReconProofs.rsum_map. apply rsum_ext. intros [t c'] _. cbn [fst snd]. ring.
Qed.
Lemma shape_kmat {A B} (L : list A) (M : list B) K : has_shape (kmat L M K) (length L) (length M).
Proof. split; [apply map_length|]. intros row I. unfold kmat in I. apply in_map_iff in I as (o & <- & _). apply map_length. Qed.

(* sums of the cells by axes *)
Lemma axis_split {A} (l : list (A * R)) (ax : A -> coord) (fo : A -> R) (G : coord -> R) :
  rsum l (fun oc => snd oc * fo (fst oc) * G (ax (fst oc))) =
  csum (fun d => G d * rsum l (fun oc => if ceqb (ax (fst oc)) d then snd oc * fo (fst oc) else 0)).
Proof.
  induction l as [|[o c] l IH]; [unfold csum; cbn; ring|]. unfold csum in *. rewrite !rsum_cons, IH. cbn [fst snd]. destruct (ax o); cbn [ceqb]; ring.
Qed.
Lemma rsum_mult_l {A} (l : list A) f c : c * rsum l f = rsum l (fun a => c * f a).
Proof. rewrite Rmult_comm, rsum_scal. apply rsum_ext. intros. ring. Qed.
Lemma core {A B} (L : list (A * R)) (M : list (B * R)) (WP : list (R * pt)) (fo : A -> pt -> R) (ft : B -> pt -> R) (ax : A -> coord) (ax' : B -> coord)
    (f : coord -> coord -> pt -> R) :
  rsum L (fun oc => rsum M (fun tc => snd oc * snd tc * entry WP (f (ax (fst oc)) (ax' (fst tc))) fo ft (fst oc) (fst tc))) =
  rsum WP (fun wx => fst wx * csum (fun d => csum (fun e => f d e (snd wx) *
    (rsum L (fun oc => if ceqb (ax (fst oc)) d then snd oc * fo (fst oc) (snd wx) else 0) *
     rsum M (fun tc => if ceqb (ax' (fst tc)) e then snd tc * ft (fst tc) (snd wx) else 0))))).
Proof.
  transitivity (rsum WP (fun wx => rsum L (fun oc => rsum M (fun tc =>
    snd oc * snd tc * (fst wx * f (ax (fst oc)) (ax' (fst tc)) (snd wx) * (fo (fst oc) (snd wx) * ft (fst tc) (snd wx))))))).
  { rewrite (rsum_swap WP L). apply rsum_ext. intros oc _. rewrite (rsum_swap WP M). apply rsum_ext. intros tc _. unfold entry. apply rsum_mult_l. }
  apply rsum_ext. intros [w x] _. cbn [fst snd].
  transitivity (w * rsum L (fun oc => snd oc * fo (fst oc) x * (fun d => rsum M (fun tc => snd tc * ft (fst tc) x * f d (ax' (fst tc)) x)) (ax (fst oc)))).
  { rewrite rsum_mult_l. apply rsum_ext. intros oc _. cbv beta. rewrite !rsum_mult_l. apply rsum_ext. intros tc _. ring. }
  f_equal. etransitivity; [exact (axis_split L ax (fun a => fo a x) (fun d => rsum M (fun tc => snd tc * ft (fst tc) x * f d (ax' (fst tc)) x)))|].
  apply csum_ext. intros d. cbv beta.
  rewrite (axis_split M ax' (fun a => ft a x) (fun e => f d e x)). unfold csum. ring.
Qed.

(* ---------- the mass matrices ---------- *)
Definition ff (fac : coord -> coord -> mat3 -> R) (orth : bool) (J : ejac) (d e : coord) (x : pt) : R :=
  if orth then (if ceqb d e then fac d e (at_pt J x) else 0) else fac d e (at_pt J x).
Definition fcell (s : Space3) (c : cell) (x : pt) : R := at_pt (cell_fn s c) x.
Definition wpts (q : Rule3) := combine (qw q) (points (qmesh q)).
Section Inner.
Variables (so s : Space3) (q : Rule3) (J : ejac) (t0 t1 t2 : ctype) (ax : cell -> coord).
Hypotheses (L0 : length t0 = 3%nat) (L1 : length t1 = 3%nat) (L2 : length t2 = 3%nat).
Hypotheses (A0 : forall e, map fst e = t0 -> ax e = cX) (A1 : forall e, map fst e = t1 -> ax e = cY) (A2 : forall e, map fst e = t2 -> ax e = cZ).
Let rows (s : Space3) := (map (cell_row s (qmesh q)) (cells_t (degrees s) t0), map (cell_row s (qmesh q)) (cells_t (degrees s) t1), map (cell_row s (qmesh q)) (cells_t (degrees s) t2)).
Lemma blk (s' s'' : Space3) f (t t' : ctype) (d e : coord) : length t = 3%nat -> length t' = 3%nat -> (forall c, map fst c = t -> ax c = d) -> (forall c, map fst c = t' -> ax c = e) ->
  kmat (cells_t (degrees s') t) (cells_t (degrees s'') t') (entry (wpts q) (f d e) (fcell s') (fcell s'')) =
  kmat (cells_t (degrees s') t) (cells_t (degrees s'') t') (fun o t => entry (wpts q) (f (ax o) (ax t)) (fcell s') (fcell s'') o t).
Proof.
  intros Lt Lt' At At'. apply kmat_ext. intros o c Io Ic. apply In_cells_t in Io; [|exact Lt]. apply In_cells_t in Ic; [|exact Lt'].
  rewrite (At o Io), (At' c Ic). reflexivity.
Qed.
Lemma gram_cells (s' s'' : Space3) (h : pt -> R) t t' :
  gram (map2 (fun a x => a * h x) (qw q) (points (qmesh q))) (map (cell_row s' (qmesh q)) (cells_t (degrees s') t)) (map (cell_row s'' (qmesh q)) (cells_t (degrees s'') t')) =
  kmat (cells_t (degrees s') t) (cells_t (degrees s'') t') (entry (wpts q) h (fcell s') (fcell s'')).
Proof. exact (gram_kmat (qw q) (points (qmesh q)) h (fcell s') (fcell s'') _ _). Qed.
Lemma block0_cells (s' s'' : Space3) t t' :
  block0 (map (cell_row s' (qmesh q)) (cells_t (degrees s') t)) (map (cell_row s'' (qmesh q)) (cells_t (degrees s'') t')) =
  kmat (cells_t (degrees s') t) (cells_t (degrees s'') t') (entry (wpts q) (fun _ => 0) (fcell s') (fcell s'')).
Proof. exact (block0_kmat (wpts q) (fcell s') (fcell s'') (points (qmesh q)) _ _). Qed.
Lemma entry_sym {A B} WP f (fo : A -> pt -> R) (ft : B -> pt -> R) o t : entry WP f fo ft o t = entry WP f ft fo t o.
Proof. unfold entry. apply rsum_ext. intros. ring. Qed.
Lemma transpose_block (f : pt -> R) t t' : transpose (kmat (cells_t (degrees s) t) (cells_t (degrees s) t') (entry (wpts q) f (fcell s) (fcell s)))
    (length (map (cell_row s (qmesh q)) (cells_t (degrees s) t'))) =
  kmat (cells_t (degrees s) t') (cells_t (degrees s) t) (entry (wpts q) f (fcell s) (fcell s)).
Proof. rewrite map_length, transpose_kmat. apply kmat_ext. intros. apply entry_sym. Qed.
Lemma inner_blocks_kmat fac same orth : (same = true -> so = s /\ forall d e j, fac d e j = fac e d j) ->
  inner_blocks fac same orth q J (rows so) (rows s) =
  kmat (cells (degrees so) [t0; t1; t2]) (cells (degrees s) [t0; t1; t2]) (fun o t => entry (wpts q) (ff fac orth J (ax o) (ax t)) (fcell so) (fcell s) o t).
Proof.
  intros Same. unfold inner_blocks, rows. unfold cells. cbn [flat_map]. rewrite !app_nil_r. rewrite <- bmat_kmat.
  rewrite <- !(blk so s (ff fac orth J) t0 t0 cX cX), <- !(blk so s (ff fac orth J) t0 t1 cX cY), <- !(blk so s (ff fac orth J) t0 t2 cX cZ),
    <- !(blk so s (ff fac orth J) t1 t0 cY cX), <- !(blk so s (ff fac orth J) t1 t1 cY cY), <- !(blk so s (ff fac orth J) t1 t2 cY cZ),
    <- !(blk so s (ff fac orth J) t2 t0 cZ cX), <- !(blk so s (ff fac orth J) t2 t1 cZ cY), <- !(blk so s (ff fac orth J) t2 t2 cZ cZ) by assumption.
  unfold ff. cbn [ceqb]. destruct orth.
  - rewrite !(gram_cells so s (fun x => _ (at_pt J x))), !block0_cells. reflexivity.
  - destruct same.
    + destruct (Same eq_refl) as [-> Sym]. rewrite !(gram_cells s s (fun x => _ (at_pt J x))), !transpose_block.
      f_equal; apply kmat_ext; intros o c _ _; unfold entry; apply rsum_ext; intros wx _; rewrite Sym; reflexivity.
    + rewrite !(gram_cells so s (fun x => _ (at_pt J x))). reflexivity.
Qed.
End Inner.
Lemma in_wpts q w x : In (w, x) (wpts q) -> In x (points (qmesh q)).
Proof. unfold wpts. apply in_combine_r. Qed.
Lemma bilinear_quad so s ts ts' q (f : coord -> coord -> pt -> R) (ax ax' : cell -> coord) co cs (h : R -> R -> R -> R) : rules_ok q ->
  on_grid (qmesh q) (fun x y z => csum (fun d => csum (fun e => f d e (x, y, z) *
     (expand so ts (fun c => ceqb (ax c) d) co x y z * expand s ts' (fun c => ceqb (ax' c) e) cs x y z))) = h x y z) ->
  bilinear (kmat (cells (degrees so) ts) (cells (degrees s) ts') (fun o t => entry (wpts q) (f (ax o) (ax' t)) (fcell so) (fcell s) o t)) co cs = quad3 q h.
Proof.
  intros Rq H. rewrite bilinear_kmat, (quad_points q h Rq), core. fold (wpts q). apply rsum_ext. intros [w x] I. cbn [fst snd]. f_equal.
  apply in_wpts in I. assert (Q := in_points _ _ _ H I). destruct x as [[x y] z]. cbn [at_pt] in *. rewrite <- Q. reflexivity.
Qed.
Lemma ff_sum fac orth J (P : Prop) u u' x (D : R) :
  (orth = true -> forall d e, d <> e -> fac d e (at_pt J x) = 0) ->
  csum (fun d => csum (fun e => fac d e (at_pt J x) * (u d * u' e))) = D ->
  csum (fun d => csum (fun e => ff fac orth J d e x * (u d * u' e))) = D.
Proof.
  intros H <-. apply csum_ext. intros d. apply csum_ext. intros e. unfold ff. destruct orth; [|reflexivity]. specialize (H eq_refl).
  destruct (ceqb d e) eqn:Q; [reflexivity|]. rewrite H; [ring|]. intros ->. destruct e; discriminate.
Qed.
Definition inner1_k so s q J orth := kmat (cells (degrees so) edges3) (cells (degrees s) edges3) (fun o t => entry (wpts q) (ff fac1 orth J (along o) (along t)) (fcell so) (fcell s) o t).
Definition inner2_k so s q J orth := kmat (cells (degrees so) faces3) (cells (degrees s) faces3) (fun o t => entry (wpts q) (ff (fac2 orth) orth J (normal o) (normal t)) (fcell so) (fcell s) o t).
Ltac ax_t := intros e E; unfold along, normal; rewrite E; reflexivity.
Lemma inner1_kmat same orth so s q J : (same = true -> so = s) -> inner1 same orth so s q J = inner1_k so s q J orth.
Proof.
  intros Same. unfold inner1, inner1_k. rewrite !basis1_ok.
  apply (inner_blocks_kmat so s q J [true; false; false] [false; true; false] [false; false; true] along); try reflexivity; try ax_t.
  intros E. split; [apply Same; exact E|]. intros. apply fac1_sym.
Qed.
Lemma inner2_kmat same orth so s q J : (same = true -> so = s) -> inner2 same orth so s q J = inner2_k so s q J orth.
Proof.
  intros Same. unfold inner2, inner2_k. rewrite !basis2_ok.
  apply (inner_blocks_kmat so s q J [false; true; true] [true; false; true] [true; true; false] normal); try reflexivity; try ax_t.
  intros E. split; [apply Same; exact E|]. intros. apply fac2_sym.
Qed.
Section Mass.
Variables (so s : Space3) (q : Rule3) (J : ejac) (same orth : bool).
Hypothesis Rq : rules_ok q.
Hypothesis N : on_grid (qmesh q) (fun x y z => det3 (J x y z) <> 0).
Hypothesis D : orth = true -> on_grid (qmesh q) (fun x y z => diagonal (J x y z)).
Hypothesis Same : same = true -> so = s.
Theorem inner1_ok co cs vo vs :
  on_grid (qmesh q) (fun x y z => pulls1 (J x y z) (vo x y z) (fun d => hat1 so co d x y z)) ->
  on_grid (qmesh q) (fun x y z => pulls1 (J x y z) (vs x y z) (fun d => hat1 s cs d x y z)) ->
  bilinear (inner1 same orth so s q J) co cs = quad3 q (fun x y z => det3 (J x y z) * dot (vo x y z) (vs x y z)).
Proof.
  intros Po Ps. rewrite (inner1_kmat same orth so s q J Same). unfold inner1_k.
  apply (bilinear_quad so s edges3 edges3 q (ff fac1 orth J) along along co cs _ Rq). intros x y z X Y Z.
  apply (ff_sum fac1 orth J True (fun d => hat1 so co d x y z) (fun e => hat1 s cs e x y z)).
  - intros E d e H. apply fac1_diag; [apply N; assumption|apply (D E); assumption|exact H].
  - apply fac1_dot; [apply N; assumption|apply Po; assumption|apply Ps; assumption].
Qed.
Theorem inner2_ok co cs vo vs :
  on_grid (qmesh q) (fun x y z => pulls2 (J x y z) (vo x y z) (fun d => hat2 so co d x y z)) ->
  on_grid (qmesh q) (fun x y z => pulls2 (J x y z) (vs x y z) (fun d => hat2 s cs d x y z)) ->
  bilinear (inner2 same orth so s q J) co cs = quad3 q (fun x y z => det3 (J x y z) * dot (vo x y z) (vs x y z)).
Proof.
  intros Po Ps. rewrite (inner2_kmat same orth so s q J Same). unfold inner2_k.
  apply (bilinear_quad so s faces3 faces3 q (ff (fac2 orth) orth J) normal normal co cs _ Rq). intros x y z X Y Z.
  rewrite <- (fac2_dot (J x y z) (vo x y z) (vs x y z) _ _ (N x y z X Y Z) (Po x y z X Y Z) (Ps x y z X Y Z)).
  apply csum_ext. intros d. apply csum_ext. intros e. apply (f_equal (fun t => t * _)). unfold ff. cbn [at_pt]. destruct orth; [|reflexivity].
  rewrite (fac2_diag (J x y z) (N x y z X Y Z) (D eq_refl x y z X Y Z)). reflexivity.
Qed.
Lemma gram0 (w : list R) (h : pt -> R) : map2 Rmult (map h (points (qmesh q))) w = map2 (fun a x => a * h x) w (points (qmesh q)).
Proof. generalize (points (qmesh q)). intros P. revert w. induction P as [|x P IH]; intros [|a w]; try reflexivity. cbn [map map2]. rewrite IH. f_equal. ring. Qed.
Definition inner0_k := kmat (cells (degrees so) nodes3) (cells (degrees s) nodes3) (entry (wpts q) (fun x => ct_Jacobian (at_pt J x)) (fcell so) (fcell s)).
Definition inner3_k := kmat (cells (degrees so) volumes3) (cells (degrees s) volumes3) (entry (wpts q) (fun x => / ct_Jacobian (at_pt J x)) (fcell so) (fcell s)).
Lemma inner0_kmat : inner0 so s q J = inner0_k.
Proof.
  unfold inner0, inner0_k. rewrite !basis0_ok. unfold detJ. rewrite gram0, gram_cells. unfold cells, nodes3. cbn [flat_map]. rewrite !app_nil_r. reflexivity.
Qed.
Lemma inner3_kmat : inner3 so s q J = inner3_k.
Proof.
  unfold inner3, inner3_k. rewrite !basis3_ok. unfold detJ. rewrite map_map, (gram0 _ (fun x => / ct_Jacobian (at_pt J x))), gram_cells. unfold cells, volumes3. cbn [flat_map]. rewrite !app_nil_r. reflexivity.
Qed.
Theorem inner0_ok co cs : bilinear (inner0 so s q J) co cs = quad3 q (fun x y z => det3 (J x y z) * (hat0 so co x y z * hat0 s cs x y z)).
Proof.
  rewrite inner0_kmat. apply (bilinear_quad so s nodes3 nodes3 q (fun d e x => ct_Jacobian (at_pt J x)) (fun _ => cX) (fun _ => cX) co cs _ Rq).
  intros x y z X Y Z. unfold csum. cbn [ceqb at_pt]. rewrite det_ct.
  change (fun _ : SpaceSpec.cell => true) with (fun _ : SpaceSpec.cell => true).
  assert (Z0 : forall s' c', expand s' nodes3 (fun _ => false) c' x y z = 0) by (intros; apply rsum_zero'; reflexivity).
  rewrite !Z0. unfold hat0. ring.
Qed.
Theorem inner3_ok co cs vo vs :
  on_grid (qmesh q) (fun x y z => pulls3 (J x y z) (vo x y z) (hat3 so co x y z)) ->
  on_grid (qmesh q) (fun x y z => pulls3 (J x y z) (vs x y z) (hat3 s cs x y z)) ->
  bilinear (inner3 so s q J) co cs = quad3 q (fun x y z => det3 (J x y z) * (vo x y z * vs x y z)).
Proof.
  intros Po Ps. rewrite inner3_kmat. apply (bilinear_quad so s volumes3 volumes3 q (fun d e x => / ct_Jacobian (at_pt J x)) (fun _ => cX) (fun _ => cX) co cs _ Rq).
  intros x y z X Y Z. unfold csum. cbn [ceqb at_pt]. rewrite det_ct.
  assert (Z0 : forall s' c', expand s' volumes3 (fun _ => false) c' x y z = 0) by (intros; apply rsum_zero'; reflexivity).
  rewrite !Z0. assert (P := Po x y z X Y Z). assert (P' := Ps x y z X Y Z). unfold pulls3, hat3 in P, P'. rewrite <- P, <- P'.
  specialize (N x y z X Y Z). cbv beta in N. field. exact N.
Qed.
(* wedge *)
Lemma wedge12_kmat : wedge12 so s q = kmat (cells (degrees so) faces3) (cells (degrees s) edges3)
  (fun o t => entry (wpts q) (if ceqb (normal o) (along t) then fun _ => 1 else fun _ => 0) (fcell so) (fcell s) o t).
Proof.
  unfold wedge12. rewrite basis2_ok, basis1_ok. unfold cells, faces3, edges3. cbn [flat_map]. rewrite !app_nil_r, <- bmat_kmat.
  assert (G : forall t t', gram (qw q) (map (cell_row so (qmesh q)) (cells_t (degrees so) t)) (map (cell_row s (qmesh q)) (cells_t (degrees s) t')) =
              kmat (cells_t (degrees so) t) (cells_t (degrees s) t') (entry (wpts q) (fun _ => 1) (fcell so) (fcell s))).
  { intros t t'. rewrite <- gram_cells. f_equal. 
    assert (L : length (qw q) = length (points (qmesh q))).
    { destruct Rq as (R0 & R1 & R2). unfold rule_ok in *. unfold qw, weights3, points, mesh3, qmesh. cbn [mx my mz].
      rewrite !(flat_len _ _ (length (snd (q1 q)) * length (snd (q0 q)))); [lia| |].
      - intros k. rewrite (flat_len _ _ (length (snd (q0 q)))); [lia|]. intros. rewrite map_length. lia.
      - intros k. rewrite (flat_len _ _ (length (snd (q0 q)))); [lia|]. intros. rewrite map_length. lia. }
    revert L. generalize (qw q) (points (qmesh q)). intros w P. revert P. induction w as [|a w IH]; intros [|x P] L; try discriminate; [reflexivity|].
    cbn [map2]. rewrite <- (IH P) by (cbn in L; lia). f_equal. ring. }
  rewrite !G, !block0_cells.
  assert (Q : forall (t t' : ctype) b, length t = 3%nat -> length t' = 3%nat -> (forall o c, map fst o = t -> map fst c = t' -> ceqb (normal o) (along c) = b) ->
     kmat (cells_t (degrees so) t) (cells_t (degrees s) t') (entry (wpts q) (if b : bool then fun _ => 1 else fun _ => 0) (fcell so) (fcell s)) =
     kmat (cells_t (degrees so) t) (cells_t (degrees s) t') (fun o t => entry (wpts q) (if ceqb (normal o) (along t) then fun _ => 1 else fun _ => 0) (fcell so) (fcell s) o t)).
  { intros t t' b Lt Lt' H. apply kmat_ext. intros o c Io Ic. apply In_cells_t in Io; [|exact Lt]. apply In_cells_t in Ic; [|exact Lt'].
    rewrite (H o c Io Ic). reflexivity. }
  f_equal; (apply (Q _ _ true) || apply (Q _ _ false)); try reflexivity; intros o c Eo Ec; unfold normal, along; rewrite Eo, Ec; reflexivity.
Qed.
Theorem wedge12_hat co cs : bilinear (wedge12 so s q) co cs = quad3 q (fun x y z => csum (fun d => hat2 so co d x y z * hat1 s cs d x y z)).
Proof.
  rewrite wedge12_kmat. apply (bilinear_quad so s faces3 edges3 q (fun d e => if ceqb d e then fun _ => 1 else fun _ => 0) normal along co cs _ Rq).
  intros x y z _ _ _. unfold csum, hat1, hat2. cbn [ceqb]. ring.
Qed.
Theorem wedge12_ok co cs v2 v1 :
  on_grid (qmesh q) (fun x y z => pulls2 (J x y z) (v2 x y z) (fun d => hat2 so co d x y z)) ->
  on_grid (qmesh q) (fun x y z => pulls1 (J x y z) (v1 x y z) (fun d => hat1 s cs d x y z)) ->
  bilinear (wedge12 so s q) co cs = quad3 q (fun x y z => det3 (J x y z) * dot (v2 x y z) (v1 x y z)).
Proof.
  intros P2 P1. rewrite wedge12_kmat. apply (bilinear_quad so s faces3 edges3 q (fun d e => if ceqb d e then fun _ => 1 else fun _ => 0) normal along co cs _ Rq).
  intros x y z X Y Z. rewrite <- (wedge_dot _ _ _ _ _ (P2 x y z X Y Z) (P1 x y z X Y Z)). unfold csum, hat1, hat2. cbn [ceqb]. ring.
Qed.
End Mass.
Theorem wedge_hat so s q (R : rules_ok q) co cs :
  bilinear (wedge12 so s q) co cs = quad3 q (fun x y z => csum (fun d => hat2 so co d x y z * hat1 s cs d x y z)).
Proof. exact (wedge12_hat so s q (fun _ _ _ => ((1, 0, 0), (0, 1, 0), (0, 0, 1))) false false R (fun e => False_ind _ (Bool.diff_false_true e)) (fun e => False_ind _ (Bool.diff_false_true e)) co cs). Qed.
Theorem wedge_ok so s q J (R : rules_ok q) co cs v2 v1 :
  on_grid (qmesh q) (fun x y z => pulls2 (J x y z) (v2 x y z) (fun d => hat2 so co d x y z)) ->
  on_grid (qmesh q) (fun x y z => pulls1 (J x y z) (v1 x y z) (fun d => hat1 s cs d x y z)) ->
  bilinear (wedge12 so s q) co cs = quad3 q (fun x y z => det3 (J x y z) * dot (v2 x y z) (v1 x y z)).
Proof. exact (wedge12_ok so s q J false false R (fun e => False_ind _ (Bool.diff_false_true e)) (fun e => False_ind _ (Bool.diff_false_true e)) co cs v2 v1). Qed.
