(* Proofs about ReconModel: arrays and reconstruction. *)
From Coq Require Import Reals List Lia Lra Arith ZArith Bool.
From Verif Require Import TfiModel TfiSpec CtModel CtSpec CtProofs RingSum SpaceModel SpaceSpec SpaceProofs SpaceProofs2 SpaceProofs3.
From Verif Require Import DiscModel DiscSpec DiscProofs DiscProofs2 DiscProofs3 ReconModel ReconSpec.
Import ListNotations.
Open Scope R_scope.

(* ---------- kron ---------- *)
Definition frows (f : nat -> R -> R) (n : nat) (x : list R) : list (list R) := map (fun i => map (f i) x) (seq 0 n).
Lemma node_rows P x : node_basis P x = frows (node_fn P) (S (pdeg P)) x.
Proof. unfold node_basis, frows. rewrite Nat.add_1_r. reflexivity. Qed.
Lemma edge_rows P x : edge_basis P x = frows (edge_fn P) (pdeg P) x.
Proof. reflexivity. Qed.
Lemma flat_map_map {A B C} (f : A -> B) (g : B -> list C) l : flat_map g (map f l) = flat_map (fun x => g (f x)) l.
Proof. induction l as [|a l IH]; [reflexivity|]. cbn. rewrite IH. reflexivity. Qed.
Lemma map_flat_map {A B C} (f : A -> list B) (g : B -> C) l : map g (flat_map f l) = flat_map (fun x => map g (f x)) l.
Proof. induction l as [|a l IH]; [reflexivity|]. cbn. rewrite map_app, IH. reflexivity. Qed.
Lemma flat_map_ext' {A B} (f g : A -> list B) l : (forall a, f a = g a) -> flat_map f l = flat_map g l.
Proof. intros H. apply flat_map_ext. exact H. Qed.
Lemma flat_map_flat {A B C} (f : A -> list B) (g : B -> list C) l : flat_map g (flat_map f l) = flat_map (fun x => flat_map g (f x)) l.
Proof. induction l as [|a l IH]; [reflexivity|]. cbn. rewrite flat_map_app, IH. reflexivity. Qed.
Definition tfn (f : bool -> nat -> R -> R) := f.
Lemma kron3 fz nz zs fy ny ys fx nx xs :
  kron (kron (frows fz nz zs) (frows fy ny ys)) (frows fx nx xs) =
  flat_map (fun k => flat_map (fun j => map (fun i => map (fun q => match q with (x, y, z) => fx i x * fy j y * fz k z end) (mesh3 xs ys zs))
    (seq 0 nx)) (seq 0 ny)) (seq 0 nz).
Proof.
  unfold kron, frows. rewrite !flat_map_map, flat_map_flat. apply flat_map_ext'. intros k.
  rewrite map_map, flat_map_map. apply flat_map_ext'. intros j. rewrite map_map. apply map_ext. intros i.
  rewrite flat_map_map, flat_map_flat. unfold mesh3. rewrite map_flat_map. apply flat_map_ext'. intros z.
  rewrite map_map, flat_map_map. rewrite map_flat_map. apply flat_map_ext'. intros y. rewrite !map_map. apply map_ext. intros x. ring.
Qed.
Definition fac_fn (P : Poly1) (b : bool) (i : nat) : R -> R := factor_fn P (b, i).
Definition fbasis (P : Poly1) (b : bool) (x : list R) : list (list R) := frows (fac_fn P b) (size (pdeg P) b) x.
Definition cell_row (s : Space3) (m : Mesh3) (c : cell) : list R := map (fun q => at_pt (cell_fn s c) q) (points m).
Lemma cells_t3 p0 p1 p2 a b d : cells_t [p0; p1; p2] [a; b; d] =
  flat_map (fun k => flat_map (fun j => map (fun i => [(a, i); (b, j); (d, k)]) (seq 0 (size p0 a))) (seq 0 (size p1 b))) (seq 0 (size p2 d)).
Proof.
  unfold cells_t. cbn [sizes grid flat_map map app]. rewrite !map_flat_map. rewrite flat_map_flat. rewrite app_nil_r, flat_map_map.
  apply flat_map_ext'. intros k. rewrite flat_map_map. apply flat_map_ext'. intros j. rewrite map_map. reflexivity.
Qed.
Lemma kron_cells s m a b d :
  kron (kron (fbasis (s2 s) d (mz m)) (fbasis (s1 s) b (my m))) (fbasis (s0 s) a (mx m)) =
  map (cell_row s m) (cells_t (degrees s) [a; b; d]).
Proof.
  unfold fbasis, degrees. rewrite kron3, cells_t3, map_flat_map. apply flat_map_ext'. intros k. rewrite map_flat_map.
  apply flat_map_ext'. intros j. rewrite map_map. apply map_ext. intros i. reflexivity.
Qed.
Lemma basis0_ok s m : basis0 s m = map (cell_row s m) (cells_t (degrees s) [false; false; false]).
Proof. rewrite <- kron_cells. unfold basis0. rewrite !node_rows. reflexivity. Qed.
Lemma basis1_ok s m : basis1 s m =
  (map (cell_row s m) (cells_t (degrees s) [true; false; false]), map (cell_row s m) (cells_t (degrees s) [false; true; false]),
   map (cell_row s m) (cells_t (degrees s) [false; false; true])).
Proof. rewrite <- !kron_cells. unfold basis1. rewrite !node_rows, !edge_rows. reflexivity. Qed.
Lemma basis2_ok s m : basis2 s m =
  (map (cell_row s m) (cells_t (degrees s) [false; true; true]), map (cell_row s m) (cells_t (degrees s) [true; false; true]),
   map (cell_row s m) (cells_t (degrees s) [true; true; false])).
Proof. rewrite <- !kron_cells. unfold basis2. rewrite !node_rows, !edge_rows. reflexivity. Qed.
Lemma basis3_ok s m : basis3 s m = map (cell_row s m) (cells_t (degrees s) [true; true; true]).
Proof. rewrite <- kron_cells. unfold basis3. rewrite !edge_rows. reflexivity. Qed.

(* ---------- sums ---------- *)
Lemma lsum_map2 {A B} (f : A -> B -> R) l m : lsum (map2 f l m) = rsum (combine l m) (fun q => f (fst q) (snd q)).
Proof. revert m. induction l as [|x l IH]; intros [|y m]; try reflexivity. cbn [map2 combine]. rewrite rsum_cons, <- IH. reflexivity. Qed.
Lemma rsum_map {A B} (h : A -> B) l f : rsum (map h l) f = rsum l (fun a => f (h a)).
Proof. induction l as [|x l IH]; [reflexivity|]. cbn [map]. rewrite !rsum_cons, IH. reflexivity. Qed.
Lemma combine_map_l {A B C} (h : A -> B) l (m : list C) : combine (map h l) m = map (fun q => (h (fst q), snd q)) (combine l m).
Proof. revert m. induction l as [|x l IH]; intros [|y m]; try reflexivity. cbn. rewrite IH. reflexivity. Qed.
Lemma map_seq_nth {A B} (l : list A) (h : nat -> B) (g : A -> B) : (forall j a, nth_error l j = Some a -> h j = g a) ->
  map h (seq 0 (length l)) = map g l.
Proof.
  revert h. induction l as [|a l IH]; intros h H; [reflexivity|]. cbn [length seq map]. f_equal; [apply (H O a eq_refl)|].
  rewrite <- seq_shift, map_map. apply IH. intros j b E. apply (H (S j) b E).
Qed.
(* einsum over rows given by functions of the points *)
Definition pt := (R * R * R)%type.
Lemma einsum_rows {A} (h : A -> pt -> R) (L : list A) c (pts : list pt) :
  einsum_c (map (fun a => map (h a) pts) L) c (length pts) = map (fun q => rsum (combine L c) (fun ac => snd ac * h (fst ac) q)) pts.
Proof.
  unfold einsum_c. apply map_seq_nth. intros j q E. rewrite lsum_map2, combine_map_l, rsum_map. apply rsum_ext. intros [a x] _.
  cbn [fst snd]. erewrite (nth_error_nth (map (h a) pts) j 0) by (rewrite nth_error_map, E; reflexivity). ring.
Qed.
Definition sum_t (s : Space3) (t : ctype) (c : list R) (q : pt) : R :=
  rsum (combine (cells_t (degrees s) t) c) (fun ac => snd ac * at_pt (cell_fn s (fst ac)) q).
Lemma einsum_cells s m t c :
  einsum_c (map (cell_row s m) (cells_t (degrees s) t)) c (length (points m)) = map (sum_t s t c) (points m).
Proof. unfold cell_row. apply (einsum_rows (fun a q => at_pt (cell_fn s a) q)). Qed.

(* ---------- cells of several types ---------- *)
Lemma combine_app_l {A B} (l l' : list A) (m : list B) : combine (l ++ l') m = combine l m ++ combine l' (skipn (length l) m).
Proof.
  revert m. induction l as [|x l IH]; intros m; [reflexivity|]. destruct m as [|y m].
  - cbn. rewrite combine_nil. reflexivity.
  - cbn. rewrite IH. reflexivity.
Qed.
Lemma combine_firstn_l {A B} (l : list A) (m : list B) : combine l (firstn (length l) m) = combine l m.
Proof. revert m. induction l as [|x l IH]; intros [|y m]; try reflexivity. cbn. rewrite IH. reflexivity. Qed.
Lemma flat_len {A B} (f : A -> list B) l n : (forall a, length (f a) = n) -> length (flat_map f l) = (length l * n)%nat.
Proof. intros H. induction l as [|a l IH]; [reflexivity|]. cbn [flat_map length]. rewrite app_length, H, IH. lia. Qed.
Lemma cells_t_len p0 p1 p2 a b d : length (cells_t [p0; p1; p2] [a; b; d]) = (size p0 a * size p1 b * size p2 d)%nat.
Proof.
  rewrite cells_t3. rewrite (flat_len _ _ (size p1 b * size p0 a)%nat).
  - rewrite seq_length. lia.
  - intros k. rewrite (flat_len _ _ (size p0 a)); [rewrite seq_length; lia|]. intros j. rewrite map_length, seq_length. reflexivity.
Qed.
Lemma In_cells_t t p c : length t = length p -> In c (cells_t p t) -> map fst c = t.
Proof.
  unfold cells_t. intros L H. apply in_map_iff in H as (i & <- & H).
  assert (Q : length i = length t).
  { clear -L H. revert t i L H. induction p as [|n p IH]; intros t i L H; destruct t as [|b t]; try discriminate.
    - cbn in H. destruct H as [<-|[]]. reflexivity.
    - cbn [sizes grid] in H. apply in_flat_map in H as (r & Hr & H). apply in_map_iff in H as (k & <- & _). cbn. f_equal.
      apply IH; [|exact Hr]. cbn in L. lia. }
  clear -Q. revert i Q. induction t as [|b t IH]; intros [|k i] Q; try discriminate; [reflexivity|]. cbn. f_equal. apply IH. cbn in Q. lia.
Qed.
Lemma rsum_app {A} (l l' : list A) f : rsum (l ++ l') f = rsum l f + rsum l' f.
Proof. induction l as [|x l IH]; [unfold rsum; cbn; ring|]. cbn [app]. rewrite !rsum_cons, IH. ring. Qed.
Lemma rsum_zero' {A} (l : list A) f : (forall a, In a l -> f a = 0) -> rsum l f = 0.
Proof. intros H. rewrite (rsum_ext _ _ (fun _ => 0)); [apply rsum_zero|exact H]. Qed.
Section Types.
Variables (s : Space3) (sel : cell -> bool).
Lemma sel_one (t : ctype) c x y z v : length t = 3%nat -> (forall e, map fst e = t -> sel e = v) ->
  rsum (combine (cells_t (degrees s) t) c) (fun q => if sel (fst q) then snd q * cell_fn s (fst q) x y z else 0) =
  if v then sum_t s t c (x, y, z) else 0.
Proof.
  intros L H. assert (K : forall q, In q (combine (cells_t (degrees s) t) c) -> sel (fst q) = v).
  { intros [e w] I. apply H. apply (In_cells_t t (degrees s)); [exact L|]. apply in_combine_l in I. exact I. }
  destruct v.
  - unfold sum_t. apply rsum_ext. intros q I. rewrite (K q I). reflexivity.
  - apply rsum_zero'. intros q I. rewrite (K q I). reflexivity.
Qed.
Lemma expand_one t c x y z : length t = 3%nat -> (forall e, map fst e = t -> sel e = true) ->
  expand s [t] sel c x y z = sum_t s t c (x, y, z).
Proof. intros L H. unfold expand, cells. cbn [flat_map]. rewrite app_nil_r. apply (sel_one t c x y z true L H). Qed.
Lemma expand_three t t' t'' v v' v'' c x y z : length t = 3%nat -> length t' = 3%nat -> length t'' = 3%nat ->
  (forall e, map fst e = t -> sel e = v) -> (forall e, map fst e = t' -> sel e = v') -> (forall e, map fst e = t'' -> sel e = v'') ->
  expand s [t; t'; t''] sel c x y z =
  (if v then sum_t s t c (x, y, z) else 0) +
  ((if v' then sum_t s t' (skipn (length (cells_t (degrees s) t)) c) (x, y, z) else 0) +
   (if v'' then sum_t s t'' (skipn (length (cells_t (degrees s) t')) (skipn (length (cells_t (degrees s) t)) c)) (x, y, z) else 0)).
Proof.
  intros L L' L'' H H' H''. unfold expand, cells. cbn [flat_map]. rewrite app_nil_r. rewrite !combine_app_l, !rsum_app.
  rewrite (sel_one t c x y z v L H), (sel_one t' _ x y z v' L' H'), (sel_one t'' _ x y z v'' L'' H''). reflexivity.
Qed.
End Types.
Lemma sum_t_firstn s t c q : sum_t s t (firstn (length (cells_t (degrees s) t)) c) q = sum_t s t c q.
Proof. unfold sum_t. rewrite combine_firstn_l. reflexivity. Qed.
Lemma hat0_sum s c x y z : hat0 s c x y z = sum_t s [false; false; false] c (x, y, z).
Proof. apply expand_one; reflexivity. Qed.
Lemma hat3_sum s c x y z : hat3 s c x y z = sum_t s [true; true; true] c (x, y, z).
Proof. apply expand_one; reflexivity. Qed.
Lemma skipn_add {A} (a b : nat) (l : list A) : skipn b (skipn a l) = skipn (a + b) l.
Proof. revert l. induction a as [|a IH]; intros l; [reflexivity|]. destruct l as [|x l]; [cbn; destruct b; reflexivity|]. apply IH. Qed.
Lemma sum_t_empty s t c q : length (cells_t (degrees s) t) = 0%nat -> sum_t s t c q = 0.
Proof. intros H. unfold sum_t. destruct (cells_t (degrees s) t); [reflexivity|discriminate]. Qed.
Section Three.
Variables (s : Space3) (t t' t'' : ctype) (c : list R).
Let n0 := length (cells_t (degrees s) t).
Let n1 := length (cells_t (degrees s) t').
Let n2 := length (cells_t (degrees s) t'').
Hypothesis Hc : length c = (n0 + n1 + n2)%nat.
Lemma axis_x q : sum_t s t (on_axis (n0, n1, n2) cX c) q = sum_t s t c q.
Proof. apply sum_t_firstn. Qed.
Lemma axis_y q : sum_t s t' (on_axis (n0, n1, n2) cY c) q = sum_t s t' (skipn n0 c) q.
Proof. apply sum_t_firstn. Qed.
Lemma axis_z q : sum_t s t'' (on_axis (n0, n1, n2) cZ c) q = sum_t s t'' (skipn n1 (skipn n0 c)) q.
Proof.
  unfold on_axis. destruct (Nat.eqb_spec n2 0) as [E|E].
  - rewrite !sum_t_empty by exact E. reflexivity.
  - rewrite skipn_add. replace (length c - n2)%nat with (n0 + n1)%nat by lia. reflexivity.
Qed.
End Three.
Lemma nums1_ok s : nums1 s = (length (cells_t (degrees s) [true; false; false]), length (cells_t (degrees s) [false; true; false]),
  length (cells_t (degrees s) [false; false; true])).
Proof. unfold nums1, degrees. rewrite !cells_t_len. cbn [size]. rewrite !Nat.add_1_r. reflexivity. Qed.
Lemma nums2_ok s : nums2 s = (length (cells_t (degrees s) [false; true; true]), length (cells_t (degrees s) [true; false; true]),
  length (cells_t (degrees s) [true; true; false])).
Proof. unfold nums2, degrees. rewrite !cells_t_len. cbn [size]. rewrite !Nat.add_1_r. reflexivity. Qed.
Lemma cells_len3 p t t' t'' : length (cells p [t; t'; t'']) = (length (cells_t p t) + length (cells_t p t') + length (cells_t p t''))%nat.
Proof. unfold cells. cbn [flat_map]. rewrite !app_length. cbn. lia. Qed.
Ltac sel3 := intros ?e ?H; unfold along, normal; rewrite H; reflexivity.
Lemma hat1_sum s c : length c = length (cells (degrees s) edges3) -> forall x y z,
  hat1 s c cX x y z = sum_t s [true; false; false] (on_axis (nums1 s) cX c) (x, y, z) /\
  hat1 s c cY x y z = sum_t s [false; true; false] (on_axis (nums1 s) cY c) (x, y, z) /\
  hat1 s c cZ x y z = sum_t s [false; false; true] (on_axis (nums1 s) cZ c) (x, y, z).
Proof.
  intros L x y z. unfold edges3 in *. rewrite cells_len3 in L. rewrite nums1_ok. rewrite axis_x, axis_y, (axis_z _ _ _ _ _ L).
  unfold hat1, edges3. repeat split.
  - rewrite (expand_three s _ [true; false; false] [false; true; false] [false; false; true] true false false); [cbv iota; ring|reflexivity|reflexivity|reflexivity|sel3|sel3|sel3].
  - rewrite (expand_three s _ [true; false; false] [false; true; false] [false; false; true] false true false); [cbv iota; ring|reflexivity|reflexivity|reflexivity|sel3|sel3|sel3].
  - rewrite (expand_three s _ [true; false; false] [false; true; false] [false; false; true] false false true); [cbv iota; ring|reflexivity|reflexivity|reflexivity|sel3|sel3|sel3].
Qed.
Lemma hat2_sum s c : length c = length (cells (degrees s) faces3) -> forall x y z,
  hat2 s c cX x y z = sum_t s [false; true; true] (on_axis (nums2 s) cX c) (x, y, z) /\
  hat2 s c cY x y z = sum_t s [true; false; true] (on_axis (nums2 s) cY c) (x, y, z) /\
  hat2 s c cZ x y z = sum_t s [true; true; false] (on_axis (nums2 s) cZ c) (x, y, z).
Proof.
  intros L x y z. unfold faces3 in *. rewrite cells_len3 in L. rewrite nums2_ok. rewrite axis_x, axis_y, (axis_z _ _ _ _ _ L).
  unfold hat2, faces3. repeat split.
  - rewrite (expand_three s _ [false; true; true] [true; false; true] [true; true; false] true false false); [cbv iota; ring|reflexivity|reflexivity|reflexivity|sel3|sel3|sel3].
  - rewrite (expand_three s _ [false; true; true] [true; false; true] [true; true; false] false true false); [cbv iota; ring|reflexivity|reflexivity|reflexivity|sel3|sel3|sel3].
  - rewrite (expand_three s _ [false; true; true] [true; false; true] [true; true; false] false false true); [cbv iota; ring|reflexivity|reflexivity|reflexivity|sel3|sel3|sel3].
Qed.

(* ---------- reconstruction as a list over the points ---------- *)
Lemma combine_maps {A B C} (f : A -> B) (g : A -> C) l : combine (map f l) (map g l) = map (fun a => (f a, g a)) l.
Proof. induction l as [|a l IH]; [reflexivity|]. cbn. rewrite IH. reflexivity. Qed.
Lemma map2_maps {A B C D} (h : B -> C -> D) (f : A -> B) (g : A -> C) l : map2 h (map f l) (map g l) = map (fun a => h (f a) (g a)) l.
Proof. induction l as [|a l IH]; [reflexivity|]. cbn. rewrite IH. reflexivity. Qed.
Lemma map2_map_r {A C D} (h : A -> C -> D) (g : A -> C) l : map2 h l (map g l) = map (fun a => h a (g a)) l.
Proof. induction l as [|a l IH]; [reflexivity|]. cbn. rewrite IH. reflexivity. Qed.
Definition hats (h : coord -> R -> R -> R -> R) (q : pt) : pt := (at_pt (h cX) q, at_pt (h cY) q, at_pt (h cZ) q).
Lemma three1_ok s m c : length c = length (cells (degrees s) edges3) ->
  three (nums1 s) (basis1 s m) c (length (points m)) = map (hats (hat1 s c)) (points m).
Proof.
  intros L. unfold three. rewrite basis1_ok. rewrite !einsum_cells, !combine_maps. apply map_ext. intros [[x y] z].
  destruct (hat1_sum s c L x y z) as (A & B & C). unfold hats, at_pt. rewrite A, B, C. reflexivity.
Qed.
Lemma three2_ok s m c : length c = length (cells (degrees s) faces3) ->
  three (nums2 s) (basis2 s m) c (length (points m)) = map (hats (hat2 s c)) (points m).
Proof.
  intros L. unfold three. rewrite basis2_ok. rewrite !einsum_cells, !combine_maps. apply map_ext. intros [[x y] z].
  destruct (hat2_sum s c L x y z) as (A & B & C). unfold hats, at_pt. rewrite A, B, C. reflexivity.
Qed.
Lemma recon0_map s m c : recon0 s m c = map (at_pt (hat0 s c)) (points m).
Proof. unfold recon0. rewrite basis0_ok, einsum_cells. apply map_ext. intros [[x y] z]. symmetry. apply hat0_sum. Qed.
Lemma recon1_map s m J orth c : length c = length (cells (degrees s) edges3) ->
  recon1 s m J orth c = map (fun q => value1 orth (iJ_at J q) (hats (hat1 s c) q)) (points m).
Proof. intros L. unfold recon1. rewrite (three1_ok s m c L), map2_map_r. reflexivity. Qed.
Lemma recon2_map s m J orth c : length c = length (cells (degrees s) faces3) ->
  recon2 s m J orth c = map (fun q => value2 orth (iJ_at J q) (hats (hat2 s c) q)) (points m).
Proof. intros L. unfold recon2. rewrite (three2_ok s m c L), map2_map_r. reflexivity. Qed.
Definition det_rows s m J := map (fun row => map2 Rmult row (map (fun q => ct_inverse_Jacobian (iJ_at J q)) (points m))) (basis3 s m).
Lemma det_rows_ok s m J : det_rows s m J =
  map (fun c => map (fun q => at_pt (cell_fn s c) q * ct_inverse_Jacobian (iJ_at J q)) (points m)) (cells_t (degrees s) [true; true; true]).
Proof. unfold det_rows. rewrite basis3_ok, map_map. apply map_ext. intros c. unfold cell_row. apply map2_maps. Qed.
Lemma recon3_map s m J c : recon3 s m J c = map (fun q => at_pt (hat3 s c) q * ct_inverse_Jacobian (iJ_at J q)) (points m).
Proof.
  unfold recon3. fold (det_rows s m J). rewrite det_rows_ok.
  rewrite (einsum_rows (fun c q => at_pt (cell_fn s c) q * ct_inverse_Jacobian (iJ_at J q))). apply map_ext. intros [[x y] z].
  change (at_pt (hat3 s c) (x, y, z)) with (hat3 s c x y z). rewrite hat3_sum. unfold sum_t. rewrite rsum_scal. apply rsum_ext. intros. unfold at_pt. ring.
Qed.

(* ---------- values at one point ---------- *)
Ltac open_mat J := destruct J as [[[[?a ?b] ?c] [[?d ?e] ?f]] [[?g ?h] ?i]].
Lemma det_ct J : ct_Jacobian J = det3 J.
Proof. open_mat J. unfold ct_Jacobian, det3. ring. Qed.
Ltac diag_t D J := 
  let X := fresh in
  assert (X := D cX cY); assert (X0 := D cX cZ); assert (X1 := D cY cX); assert (X2 := D cY cZ); assert (X3 := D cZ cX); assert (X4 := D cZ cY);
  unfold ent, mrow in *; cbn [TfiModel.get] in *;
  specialize (X ltac:(discriminate)); specialize (X0 ltac:(discriminate)); specialize (X1 ltac:(discriminate));
  specialize (X2 ltac:(discriminate)); specialize (X3 ltac:(discriminate)); specialize (X4 ltac:(discriminate)); subst.
Lemma inv_diag J : diagonal J -> det3 J <> 0 -> exists a b c, J = ((a, 0, 0), (0, b, 0), (0, 0, c)) /\
  ct_inverse_Jacobian_matrix J = ((1 / a, 0, 0), (0, 1 / b, 0), (0, 0, 1 / c)) /\ a <> 0 /\ b <> 0 /\ c <> 0.
Proof.
  intros D N. open_mat J. diag_t D J. exists a, e, i. split; [reflexivity|].
  assert (E : det3 (a, 0, 0, (0, e, 0), (0, 0, i)) = a * e * i) by (unfold det3; ring). rewrite E in N.
  assert (a <> 0) by (intros ->; apply N; ring). assert (e <> 0) by (intros ->; apply N; ring). assert (i <> 0) by (intros ->; apply N; ring).
  split; [|auto]. unfold ct_inverse_Jacobian_matrix. rewrite det_ct, E. repeat (apply f_equal2); field; auto.
Qed.
Lemma value1_pulls orth J u : det3 J <> 0 -> (orth = true -> diagonal J) ->
  pulls1 J (value1 orth (ct_inverse_Jacobian_matrix J) u) (TfiModel.get u).
Proof.
  intros N D k. destruct u as [[u v] w]. destruct orth.
  - destruct (inv_diag J (D eq_refl) N) as (a & b & c & -> & -> & Ha & Hb & Hc). unfold value1, dot, csum, col, ent, mrow.
    destruct k; cbn [TfiModel.get]; field; auto.
  - unfold value1, ct_inverse_Jacobian_matrix. rewrite det_ct. open_mat J. unfold dot, csum, col, ent, mrow.
    destruct k; cbn [TfiModel.get]; unfold det3 in *; field; exact N.
Qed.
Lemma value2_pulls orth J u : det3 J <> 0 -> (orth = true -> diagonal J) ->
  pulls2 J (value2 orth (ct_inverse_Jacobian_matrix J) u) (TfiModel.get u).
Proof.
  intros N D k. destruct u as [[u v] w]. destruct orth.
  - destruct (inv_diag J (D eq_refl) N) as (a & b & c & -> & -> & Ha & Hb & Hc). unfold value2, dot, csum, cross, col, ent, mrow.
    destruct k; cbn [next TfiModel.get]; field; auto.
  - unfold value2, ct_inverse_Jacobian_matrix. rewrite det_ct. open_mat J. unfold dot, csum, cross, col, ent, mrow.
    destruct k; cbn [next TfiModel.get]; unfold det3 in *; field; exact N.
Qed.
Lemma inv_det J : det3 J <> 0 -> ct_inverse_Jacobian (ct_inverse_Jacobian_matrix J) = / det3 J.
Proof.
  intros N. unfold ct_inverse_Jacobian, ct_inverse_Jacobian_matrix. rewrite det_ct. open_mat J. unfold ct_Jacobian, det3 in *. field. exact N.
Qed.

(* ---------- arrays of points ---------- *)
Lemma nth_flat {A B} (f : A -> list B) l n i k : (forall a, length (f a) = n) -> (i < n)%nat ->
  nth_error (flat_map f l) (i + k * n) = match nth_error l k with Some a => nth_error (f a) i | None => None end.
Proof.
  intros L Hi. revert k. induction l as [|a l IH]; intros k.
  - cbn [flat_map]. rewrite (proj2 (nth_error_None _ _)) by (cbn; lia). destruct k; reflexivity.
  - cbn [flat_map]. destruct k as [|k].
    + rewrite nth_error_app1 by (rewrite L; lia). cbn [nth_error]. f_equal. lia.
    + rewrite nth_error_app2 by (rewrite L; lia). cbn [nth_error]. rewrite <- IH. f_equal. rewrite L. lia.
Qed.
Lemma mesh_index m i j k : at_index m (points m) i j k = mesh_pt m i j k.
Proof.
  unfold at_index, mesh_pt, points, mesh3.
  destruct (Nat.ltb_spec i (length (mx m))) as [Hi|Hi]; cbn [andb].
  2:{ rewrite (proj2 (nth_error_None (mx m) i)) by lia. reflexivity. }
  destruct (Nat.ltb_spec j (length (my m))) as [Hj|Hj]; cbn [andb].
  2:{ rewrite (proj2 (nth_error_None (my m) j)) by lia. destruct (nth_error (mx m) i); reflexivity. }
  destruct (Nat.ltb_spec k (length (mz m))) as [Hk|Hk]; cbn [andb].
  2:{ rewrite (proj2 (nth_error_None (mz m) k)) by lia. destruct (nth_error (mx m) i), (nth_error (my m) j); reflexivity. }
  assert (L : forall z : R, length (flat_map (fun y => map (fun x => (x, y, z)) (mx m)) (my m)) = (length (mx m) * length (my m))%nat).
  { intros z. rewrite (flat_len _ _ (length (mx m))); [lia|]. intros y. apply map_length. }
  rewrite (nth_flat _ (mz m) (length (mx m) * length (my m)) _ k L) by nia.
  destruct (nth_error (mz m) k) as [z|]; [|destruct (nth_error (mx m) i), (nth_error (my m) j); reflexivity].
  rewrite (nth_flat _ (my m) (length (mx m)) _ j) by (intros; rewrite ?map_length; lia).
  destruct (nth_error (my m) j) as [y|]; [|destruct (nth_error (mx m) i); reflexivity].
  rewrite nth_error_map. destruct (nth_error (mx m) i); reflexivity.
Qed.
Lemma at_index_map {A B} (h : A -> B) m l i j k : at_index m (map h l) i j k = option_map h (at_index m l i j k).
Proof. unfold at_index. destruct (_ && _ && _)%bool; [apply nth_error_map|reflexivity]. Qed.
Lemma array_map {A} m (h : pt -> A) (V : R -> R -> R -> A -> Prop) :
  on_grid m (fun x y z => V x y z (h (x, y, z))) -> array_of m (map h (points m)) V.
Proof.
  intros H i j k. rewrite at_index_map, mesh_index. unfold mesh_pt.
  destruct (nth_error (mx m) i) as [x|] eqn:X; [|reflexivity]. destruct (nth_error (my m) j) as [y|] eqn:Y; [|reflexivity].
  destruct (nth_error (mz m) k) as [z|] eqn:Z; [|reflexivity]. cbn [option_map]. exists (h (x, y, z)). split; [reflexivity|].
  apply H; eapply nth_error_In; eassumption.
Qed.
Theorem recon0_ok s m c : array_of m (recon0 s m c) (fun x y z v => v = hat0 s c x y z).
Proof. rewrite recon0_map. apply array_map. intros x y z _ _ _. reflexivity. Qed.
Lemma get_hats h x y z d : TfiModel.get (hats h (x, y, z)) d = h d x y z.
Proof. destruct d; reflexivity. Qed.
Theorem recon1_ok s m J orth c : length c = length (cells (degrees s) edges3) ->
  on_grid m (fun x y z => det3 (J x y z) <> 0) -> (orth = true -> on_grid m (fun x y z => diagonal (J x y z))) ->
  array_of m (recon1 s m J orth c) (fun x y z v => pulls1 (J x y z) v (fun d => hat1 s c d x y z)).
Proof.
  intros L N D. rewrite (recon1_map s m J orth c L). apply array_map. intros x y z X Y Z d. rewrite <- get_hats.
  apply value1_pulls; [apply N; assumption|]. intros E. apply (D E); assumption.
Qed.
Theorem recon2_ok s m J orth c : length c = length (cells (degrees s) faces3) ->
  on_grid m (fun x y z => det3 (J x y z) <> 0) -> (orth = true -> on_grid m (fun x y z => diagonal (J x y z))) ->
  array_of m (recon2 s m J orth c) (fun x y z v => pulls2 (J x y z) v (fun d => hat2 s c d x y z)).
Proof.
  intros L N D. rewrite (recon2_map s m J orth c L). apply array_map. intros x y z X Y Z d. rewrite <- get_hats.
  apply value2_pulls; [apply N; assumption|]. intros E. apply (D E); assumption.
Qed.
Theorem recon3_ok s m J c : on_grid m (fun x y z => det3 (J x y z) <> 0) ->
  array_of m (recon3 s m J c) (fun x y z v => pulls3 (J x y z) v (hat3 s c x y z)).
Proof.
  intros N. rewrite recon3_map. apply array_map. intros x y z X Y Z. unfold pulls3, iJ_at. cbn [at_pt].
  specialize (N x y z X Y Z). cbv beta in N. rewrite inv_det by exact N. field. exact N.
Qed.

(* ---------- reconstruction matrices ---------- *)
Lemma times_map (l : list pt) (f : pt -> list R) c : times (map f l) c = map (fun q => rsum (combine (f q) c) (fun ab => fst ab * snd ab)) l.
Proof. unfold times. rewrite map_map. reflexivity. Qed.
Lemma transpose_rows {A} (h : A -> pt -> R) (L : list A) (pts : list pt) :
  transpose (map (fun a => map (h a) pts) L) (length pts) = map (fun q => map (fun a => h a q) L) pts.
Proof.
  unfold transpose. apply map_seq_nth. intros j q E. rewrite map_map. apply map_ext. intros a.
  apply nth_error_nth. rewrite nth_error_map, E. reflexivity.
Qed.
Lemma transpose_cells s m t : transpose (map (cell_row s m) (cells_t (degrees s) t)) (length (points m)) =
  map (fun q => map (fun c => at_pt (cell_fn s c) q) (cells_t (degrees s) t)) (points m).
Proof. unfold cell_row. apply (transpose_rows (fun c q => at_pt (cell_fn s c) q)). Qed.
Lemma dot_row (s : Space3) t (g : R) (q : pt) c :
  rsum (combine (map (fun e => at_pt (cell_fn s e) q * g) (cells_t (degrees s) t)) c) (fun ab => fst ab * snd ab) = sum_t s t c q * g.
Proof. rewrite combine_map_l, rsum_map. unfold sum_t. rewrite rsum_scal. apply rsum_ext. intros. cbn [fst snd]. ring. Qed.
Lemma scale_map (l : list pt) (f : pt -> list R) (g : pt -> R) : scale_rows (map f l) (map g l) = map (fun q => map (fun x => x * g q) (f q)) l.
Proof. unfold scale_rows. apply (map2_maps (fun row a => map (fun x => x * a) row)). Qed.
Lemma zeros_map (l : list pt) (f : pt -> list R) : zeros (map f l) = map (fun q => map (fun x => x * 0) (f q)) l.
Proof. unfold zeros. rewrite map_map. apply map_ext. intros q. apply map_ext. intros x. ring. Qed.
Lemma hstack_map (l : list pt) (f g h : pt -> list R) : hstack3 (map f l) (map g l) (map h l) = map (fun q => f q ++ g q ++ h q) l.
Proof. unfold hstack3. rewrite !map2_maps. reflexivity. Qed.
Lemma dot3_rows s t t' t'' g0 g1 g2 q c :
  rsum (combine (map (fun e => at_pt (cell_fn s e) q * g0) (cells_t (degrees s) t) ++
                 map (fun e => at_pt (cell_fn s e) q * g1) (cells_t (degrees s) t') ++
                 map (fun e => at_pt (cell_fn s e) q * g2) (cells_t (degrees s) t'')) c) (fun ab => fst ab * snd ab) =
  sum_t s t c q * g0 + (sum_t s t' (skipn (length (cells_t (degrees s) t)) c) q * g1 +
    sum_t s t'' (skipn (length (cells_t (degrees s) t')) (skipn (length (cells_t (degrees s) t)) c)) q * g2).
Proof. rewrite !combine_app_l, !rsum_app, !dot_row, !map_length. reflexivity. Qed.
Section Matrix.
Variables (s : Space3) (m : Mesh3) (t t' t'' : ctype) (c : list R).
Let b0 := transpose (map (cell_row s m) (cells_t (degrees s) t)) (length (points m)).
Let b1 := transpose (map (cell_row s m) (cells_t (degrees s) t')) (length (points m)).
Let b2 := transpose (map (cell_row s m) (cells_t (degrees s) t'')) (length (points m)).
Let n := (length (cells_t (degrees s) t), length (cells_t (degrees s) t'), length (cells_t (degrees s) t'')).
Hypothesis Hc : length c = (length (cells_t (degrees s) t) + length (cells_t (degrees s) t') + length (cells_t (degrees s) t''))%nat.
Lemma rm3_times (g0 g1 g2 : pt -> R) :
  times (hstack3 (scale_rows b0 (map g0 (points m))) (scale_rows b1 (map g1 (points m))) (scale_rows b2 (map g2 (points m)))) c =
  map (fun q => sum_t s t (on_axis n cX c) q * g0 q + (sum_t s t' (on_axis n cY c) q * g1 q + sum_t s t'' (on_axis n cZ c) q * g2 q)) (points m).
Proof.
  unfold b0, b1, b2. rewrite !transpose_cells, !scale_map, hstack_map, times_map. apply map_ext. intros q. rewrite !map_map.
  rewrite dot3_rows. unfold n. rewrite axis_x, axis_y, (axis_z _ _ _ _ _ Hc). reflexivity.
Qed.
Lemma orth_rows : zeros b0 = scale_rows b0 (map (fun _ => 0) (points m)) /\ zeros b1 = scale_rows b1 (map (fun _ => 0) (points m)) /\
  zeros b2 = scale_rows b2 (map (fun _ => 0) (points m)).
Proof. unfold b0, b1, b2. rewrite !transpose_cells, !zeros_map, !scale_map. auto. Qed.
End Matrix.
Lemma inJ_diag J orth q : (orth = true -> diagonal (at_pt J q)) -> det3 (at_pt J q) <> 0 -> orth = true ->
  exists a b c, iJ_at J q = ((a, 0, 0), (0, b, 0), (0, 0, c)).
Proof.
  intros D N E. destruct (inv_diag _ (D E) N) as (a & b & c & _ & H & _). exists (1 / a), (1 / b), (1 / c). exact H.
Qed.
Lemma in_points m q (P : R -> R -> R -> Prop) : on_grid m P -> In q (points m) -> at_pt P q.
Proof.
  intros H I. unfold points, mesh3 in I. apply in_flat_map in I as (z & Z & I). apply in_flat_map in I as (y & Y & I).
  apply in_map_iff in I as (x & <- & X). apply H; assumption.
Qed.
Lemma at_pt_fun {A} (h : A -> Prop) (J : R -> R -> R -> A) q : at_pt (fun x y z => h (J x y z)) q = h (at_pt J q).
Proof. destruct q as [[x y] z]. reflexivity. Qed.
Lemma hats1_eq s c q : length c = length (cells (degrees s) edges3) -> hats (hat1 s c) q =
  (sum_t s [true; false; false] (on_axis (nums1 s) cX c) q, sum_t s [false; true; false] (on_axis (nums1 s) cY c) q,
   sum_t s [false; false; true] (on_axis (nums1 s) cZ c) q).
Proof. intros L. destruct q as [[x y] z]. destruct (hat1_sum s c L x y z) as (A & B & C). unfold hats, at_pt. rewrite A, B, C. reflexivity. Qed.
Lemma hats2_eq s c q : length c = length (cells (degrees s) faces3) -> hats (hat2 s c) q =
  (sum_t s [false; true; true] (on_axis (nums2 s) cX c) q, sum_t s [true; false; true] (on_axis (nums2 s) cY c) q,
   sum_t s [true; true; false] (on_axis (nums2 s) cZ c) q).
Proof. intros L. destruct q as [[x y] z]. destruct (hat2_sum s c L x y z) as (A & B & C). unfold hats, at_pt. rewrite A, B, C. reflexivity. Qed.
Theorem rm_0_ok s m c : times (rm_0 s m) c = recon0 s m c.
Proof.
  rewrite recon0_map. unfold rm_0. rewrite basis0_ok, transpose_cells, times_map. apply map_ext. intros [[x y] z].
  cbn [at_pt]. rewrite hat0_sum. unfold sum_t. rewrite combine_map_l, rsum_map. apply rsum_ext. intros. cbn [fst snd at_pt]. ring.
Qed.
Theorem rm_3_ok s m J c : times (rm_3 s m J) c = recon3 s m J c.
Proof.
  rewrite recon3_map. unfold rm_3. fold (det_rows s m J). rewrite det_rows_ok.
  rewrite (transpose_rows (fun c q => at_pt (cell_fn s c) q * ct_inverse_Jacobian (iJ_at J q))), times_map. apply map_ext. intros [[x y] z].
  rewrite dot_row. cbn [at_pt]. rewrite hat3_sum. reflexivity.
Qed.
Theorem rm_1_ok s m J orth c : length c = length (cells (degrees s) edges3) ->
  on_grid m (fun x y z => det3 (J x y z) <> 0) -> (orth = true -> on_grid m (fun x y z => diagonal (J x y z))) ->
  match rm_1 s m J orth with (a, b, d) => components (recon1 s m J orth c) (times a c) (times b c) (times d c) end.
Proof.
  intros L N D. assert (L' := L). unfold edges3 in L'. rewrite cells_len3 in L'. rewrite (recon1_map s m J orth c L). unfold rm_1. rewrite basis1_ok, !map_map.
  assert (N1 : forall q, In q (points m) -> det3 (at_pt J q) <> 0).
  { intros q I. rewrite <- (at_pt_fun (fun j => det3 j <> 0)). apply (in_points m q _ N I). }
  assert (D1 : forall q, In q (points m) -> orth = true -> diagonal (at_pt J q)).
  { intros q I E. rewrite <- (at_pt_fun diagonal). apply (in_points m q _ (D E) I). }
  unfold components, rm3. destruct orth.
  - destruct (orth_rows s m [true; false; false] [false; true; false] [false; false; true]) as (Z0 & Z1 & Z2). rewrite Z0, Z1, Z2.
    repeat split; rewrite (rm3_times s m _ _ _ c L'); rewrite !map_map; apply map_ext_in; intros q Hq; rewrite hats1_eq by exact L; rewrite nums1_ok;
      destruct (inJ_diag J true q (D1 q Hq) (N1 q Hq) eq_refl) as (a & b & d & ->); cbn [value1 TfiModel.get ment]; ring.
  - repeat split; rewrite (rm3_times s m _ _ _ c L'); rewrite !map_map; apply map_ext_in; intros q Hq; rewrite hats1_eq by exact L; rewrite nums1_ok;
      destruct (iJ_at J q) as [[[[a0 a1] a2] [[a3 a4] a5]] [[a6 a7] a8]]; cbn [value1 TfiModel.get ment]; ring.
Qed.
Theorem rm_2_ok s m J orth c : length c = length (cells (degrees s) faces3) ->
  on_grid m (fun x y z => det3 (J x y z) <> 0) -> (orth = true -> on_grid m (fun x y z => diagonal (J x y z))) ->
  match rm_2 s m J orth with (a, b, d) => components (recon2 s m J orth c) (times a c) (times b c) (times d c) end.
Proof.
  intros L N D. assert (L' := L). unfold faces3 in L'. rewrite cells_len3 in L'. rewrite (recon2_map s m J orth c L). unfold rm_2. rewrite basis2_ok, !map_map.
  assert (N1 : forall q, In q (points m) -> det3 (at_pt J q) <> 0).
  { intros q I. rewrite <- (at_pt_fun (fun j => det3 j <> 0)). apply (in_points m q _ N I). }
  assert (D1 : forall q, In q (points m) -> orth = true -> diagonal (at_pt J q)).
  { intros q I E. rewrite <- (at_pt_fun diagonal). apply (in_points m q _ (D E) I). }
  unfold components, rm3. destruct orth.
  - destruct (orth_rows s m [false; true; true] [true; false; true] [true; true; false]) as (Z0 & Z1 & Z2). rewrite Z0, Z1, Z2.
    repeat split; rewrite (rm3_times s m _ _ _ c L'); rewrite !map_map; apply map_ext_in; intros q Hq; rewrite hats2_eq by exact L; rewrite nums2_ok;
      destruct (inJ_diag J true q (D1 q Hq) (N1 q Hq) eq_refl) as (a & b & d & ->); cbn [value2 TfiModel.get cof2]; ring.
  - repeat split; rewrite (rm3_times s m _ _ _ c L'); rewrite !map_map; apply map_ext_in; intros q Hq; rewrite hats2_eq by exact L; rewrite nums2_ok;
      destruct (iJ_at J q) as [[[[a0 a1] a2] [[a3 a4] a5]] [[a6 a7] a8]]; cbn [value2 TfiModel.get cof2]; ring.
Qed.
