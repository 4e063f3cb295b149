(* Proofs about CtModel. *)
From Coq Require Import Reals List Lra Lia.
From Verif Require Import TfiModel TfiSpec TfiProofs TfiProofs2 CtModel CtSpec.
Import ListNotations.
Open Scope R_scope.

Lemma chain_lim : forall f d o x l, derivable_pt_lim f ((x + 1) * (1 / 2) * d + o) l ->
  derivable_pt_lim (fun y => f ((y + 1) * (1 / 2) * d + o)) x (l * (d / 2)).
Proof.
  intros f d o x l H.
  apply (derivable_pt_lim_comp (fun y => (y + 1) * (1 / 2) * d + o) f); [|exact H].
  apply (lim_ext' (fun y => (d / 2 + o) + d / 2 * y)); [intro; field | apply affine_lim].
Qed.

Lemma ct_jacobian : forall f m e, jacobian_of f m ->
  jacobian_of (ct_mapping f e) (ct_Jacobian_matrix m false e).
Proof.
  intros f m e H c xi eta sg. unfold ct_mapping, ct_Jacobian_matrix, to_ref.
  destruct e as [[[o0 o1] o2] [[d0 d1] d2]]. cbn [e_o e_d get].
  set (r := (xi + 1) * (1 / 2) * d0 + o0). set (s := (eta + 1) * (1 / 2) * d1 + o1).
  set (t := (sg + 1) * (1 / 2) * d2 + o2).
  pose proof (H c r s t) as D. destruct (m r s t) as [[[[u0 u1] u2] [[v0 v1] v2]] [[w0 w1] w2]].
  destruct c; cbn [mrow row_times] in D |- *; destruct D as (D1 & D2 & D3); (split; [|split]);
  first [apply (chain_lim (fun x => f _ x s t)); exact D1
        |apply (chain_lim (fun x => f _ r x t)); exact D2
        |apply (chain_lim (fun x => f _ r s x)); exact D3].
Qed.

Lemma ct_orth : forall m e xi eta sg,
  (forall r s t i j, i <> j -> ent (m r s t) i j = 0) ->
  ct_Jacobian_matrix m true e xi eta sg = ct_Jacobian_matrix m false e xi eta sg.
Proof.
  intros m e xi eta sg H. unfold ct_Jacobian_matrix.
  set (r := to_ref e cX xi). set (s := to_ref e cY eta). set (t := to_ref e cZ sg).
  pose proof (H r s t) as D. destruct (m r s t) as [[[[u0 u1] u2] [[v0 v1] v2]] [[w0 w1] w2]].
  assert (u1 = 0 /\ u2 = 0 /\ v0 = 0 /\ v2 = 0 /\ w0 = 0 /\ w1 = 0) as (-> & -> & -> & -> & -> & ->).
  { repeat split; [apply (D cX cY)|apply (D cX cZ)|apply (D cY cX)|apply (D cY cZ)|apply (D cZ cX)|apply (D cZ cY)];
      discriminate. }
  destruct (e_d e) as [[x y] z]. cbn [row_times]. rewrite !Rmult_0_l. reflexivity.
Qed.

Lemma ct_entries : forall m e xi eta sg i j,
  ct_J m e i j xi eta sg = ent (ct_Jacobian_matrix m false e xi eta sg) i j.
Proof.
  intros m e xi eta sg i j. unfold ct_J, ct_Jacobian_matrix, ent.
  destruct (m _ _ _) as [[[[u0 u1] u2] [[v0 v1] v2]] [[w0 w1] w2]].
  destruct (e_d e) as [[x y] z]. destruct i, j; cbn [mrow row_times get]; field.
Qed.

Ltac mats := repeat match goal with m : mat3 |- _ => destruct m as [[[[? ?] ?] [[? ?] ?]] [[? ?] ?]]
  | v : vec |- _ => destruct v as [[? ?] ?] | v : (R * R * R)%type |- _ => destruct v as [[? ?] ?] end.

Lemma ct_Jacobian_det : forall J, ct_Jacobian J = det3 J.
Proof. intro J. mats. cbn [ct_Jacobian det3]. ring. Qed.

Lemma ct_inverse_ok : forall J, det3 J <> 0 -> inverse J (ct_inverse_Jacobian_matrix J).
Proof.
  intros J. mats. cbn [det3]. intro H. unfold inverse, right_inverse, csum, ent, ct_inverse_Jacobian_matrix.
  split; intros i j; destruct i, j; cbn [mrow get ct_Jacobian delta]; field; intro Z; apply H; rewrite <- Z; ring.
Qed.

Lemma ct_inverse_det : forall J, det3 J <> 0 ->
  ct_inverse_Jacobian (ct_inverse_Jacobian_matrix J) = / det3 J.
Proof.
  intros J. mats. cbn [det3]. intro H. unfold ct_inverse_Jacobian, ct_inverse_Jacobian_matrix.
  cbn [ct_Jacobian]. field; intro Z; apply H; rewrite <- Z; ring.
Qed.

Lemma ct_metric_gram : forall J, gram_of J (ct_metric_matrix J).
Proof. intro J. mats. intros i j. destruct i, j; cbn; unfold csum, ent; cbn; ring. Qed.
Lemma ct_metric_det : forall J, det3 (ct_metric_matrix J) = ct_metric J.
Proof. intro J. mats. unfold ct_metric. cbn [det3 ct_metric_matrix ct_Jacobian]. ring. Qed.

Lemma csum_ext : forall f h, (forall c, f c = h c) -> csum f = csum h.
Proof. intros f h E. unfold csum. rewrite !E. reflexivity. Qed.
Lemma csum_delta : forall f i, csum (fun k => delta i k * f k) = f i.
Proof. intros f i. unfold csum. destruct i; cbn [delta]; ring. Qed.
Lemma delta_sym : forall i j, delta i j = delta j i.
Proof. intros i j. destruct i, j; reflexivity. Qed.

Lemma gram_inverse : forall J K G H, inverse J K -> gram_of J G ->
  (forall i j, ent H i j = csum (fun k => ent K i k * ent K j k)) -> inverse G H.
Proof.
  intros J K G H (A & B) C D. split; intros i j.
  - rewrite (csum_ext _ (fun k => csum (fun l => ent J l i * ent J l k) * csum (fun m => ent K k m * ent K j m)))
      by (intro c; rewrite C, D; reflexivity).
    transitivity (csum (fun l => ent J l i * csum (fun m => csum (fun k => ent J l k * ent K k m) * ent K j m)));
      [unfold csum; ring|].
    rewrite (csum_ext _ (fun l => ent K j l * ent J l i)).
    + rewrite (B j i). apply delta_sym.
    + intro l. rewrite (csum_ext _ (fun m => delta l m * ent K j m)) by (intro m; rewrite (A l m); reflexivity).
      rewrite csum_delta. ring.
  - rewrite (csum_ext _ (fun k => csum (fun m => ent K i m * ent K k m) * csum (fun l => ent J l k * ent J l j)))
      by (intro c; rewrite C, D; reflexivity).
    transitivity (csum (fun m => ent K i m * csum (fun l => csum (fun k => ent J l k * ent K k m) * ent J l j)));
      [unfold csum; ring|].
    rewrite (csum_ext _ (fun m => ent K i m * ent J m j)); [exact (B i j)|].
    intro m. rewrite (csum_ext _ (fun l => delta m l * ent J l j))
      by (intro l; rewrite (A l m), delta_sym; reflexivity).
    rewrite csum_delta. reflexivity.
Qed.

Lemma ct_inverse_metric_ok : forall J, det3 J <> 0 ->
  inverse (ct_metric_matrix J) (ct_inverse_metric_matrix (ct_inverse_Jacobian_matrix J)).
Proof.
  intros J H. apply (gram_inverse J (ct_inverse_Jacobian_matrix J)).
  - apply ct_inverse_ok; exact H.
  - apply ct_metric_gram.
  - set (K := ct_inverse_Jacobian_matrix J). clearbody K. mats.
    intros i j. destruct i, j; cbn; unfold csum, ent; cbn; ring.
Qed.

(* ---- neighbours ---- *)
Lemma behind_ref : forall e e' k c x x', behind e e' k ->
  (c = k -> x = 1 /\ x' = -1) -> (c <> k -> x = x') -> to_ref e c x = to_ref e' c x'.
Proof.
  intros e e' k c x x' B H1 H2. destruct (B c) as (O & D). unfold to_ref.
  assert (C : c = k \/ c <> k) by (destruct c, k; (left; reflexivity) || (right; discriminate)).
  destruct C as [<-|N].
  - destruct (H1 eq_refl) as (-> & ->). destruct c; lra.
  - rewrite (H2 N), (D N), O. destruct c, k; try (exfalso; apply N; reflexivity); ring.
Qed.

Lemma shared_side : forall f e e' s, upper s = true -> behind e e' (across s) ->
  forall c a b, tr_mapping f e s c a b = tr_mapping f e' (opposite s) c a b.
Proof.
  intros f e e' s U B c a b. unfold tr_mapping, ct_mapping.
  destruct s; cbn [upper] in U; try discriminate; cbn [opposite full_ep across] in *;
  f_equal; eapply behind_ref; try exact B; try congruence; intros; auto.
Qed.

(* ---- sides ---- *)
Lemma side_tangents_ok : forall f m e s, jacobian_of f m -> forall a b,
  match full_ep s a b with (x, y, z) =>
    side_tangents (tr_mapping f e s) a b
      (col (ct_Jacobian_matrix m false e x y z) (first s))
      (col (ct_Jacobian_matrix m false e x y z) (second s)) end.
Proof.
  intros f m e s H a b. pose proof (ct_jacobian f m e H) as D.
  destruct (full_ep s a b) as [[x y] z] eqn:E. intro c. pose proof (D c x y z) as Q.
  unfold tr_mapping, col, ent.
  set (M := ct_Jacobian_matrix m false e x y z) in *. clearbody M. mats.
  destruct s; cbn [full_ep] in E; injection E as <- <- <-; cbn [full_ep first second];
    destruct c; cbn [mrow get] in Q |- *; destruct Q as (Q1 & Q2 & Q3); split; assumption.
Qed.

Definition tcols (J : mat32) : vec * vec :=
  match J with ((a0, b0), (a1, b1), (a2, b2)) => ((a0, a1, a2), (b0, b1, b2)) end.
Lemma tr_cols : forall J s, tcols (tr_Jacobian_matrix J s) =
  match s with tW | tE => (col J (second s), col J (first s)) | _ => (col J (first s), col J (second s)) end.
Proof. intros J s. mats. destruct s; reflexivity. Qed.

(* the columns of J and the rows of its inverse *)
Definition vrow (m : mat3) (i : coord) : vec := mrow m i.
Lemma rows_cols : forall J, det3 J <> 0 -> forall i j,
  dot (vrow (ct_inverse_Jacobian_matrix J) i) (col J j) = delta i j.
Proof.
  intros J H i j. destruct (ct_inverse_ok J H) as (_ & B). specialize (B i j).
  unfold dot. rewrite <- B. unfold csum, vrow, ent, col. cbn [get]. destruct J as [[[[? ?] ?] [[? ?] ?]] [[? ?] ?]]. 
  destruct j; reflexivity.
Qed.

Lemma det_cross : forall J s, det3 J =
  dot (cross (fst (tcols (tr_Jacobian_matrix J s))) (snd (tcols (tr_Jacobian_matrix J s)))) (col J (across s)).
Proof.
  intros J s. mats. destruct s; unfold dot, csum, cross, col, ent; cbn; ring.
Qed.

Lemma tr_metric_cross : forall J s, tr_metric (tr_Jacobian_matrix J s) =
  dot (cross (col J (first s)) (col J (second s))) (cross (col J (first s)) (col J (second s))).
Proof.
  intros J s. mats. destruct s; unfold tr_metric, dot, csum, cross, col, ent; cbn; ring.
Qed.

Definition scal (k : R) (v : vec) : vec := match v with (x, y, z) => (k * x, k * y, k * z) end.

Lemma norm2_pos : forall w : vec, (exists v, dot w v <> 0) -> 0 < dot w w.
Proof.
  intros w (v & H). destruct w as [[x y] z]. destruct v as [[p q] r].
  unfold dot, csum in *. cbn [get] in *.
  destruct (Req_dec x 0) as [->|X]; [|pose proof (Rsqr_pos_lt x X); unfold Rsqr in *; nra].
  destruct (Req_dec y 0) as [->|Y]; [|pose proof (Rsqr_pos_lt y Y); unfold Rsqr in *; nra].
  destruct (Req_dec z 0) as [->|Z]; [|pose proof (Rsqr_pos_lt z Z); unfold Rsqr in *; nra].
  exfalso. apply H. ring.
Qed.

Lemma unit_normal_form : forall J, unit_normal J =
  scal (/ sqrt (dot (cross (fst (tcols J)) (snd (tcols J))) (cross (fst (tcols J)) (snd (tcols J)))))
       (cross (fst (tcols J)) (snd (tcols J))).
Proof.
  intro J. destruct J as [[[a0 b0] [a1 b1]] [a2 b2]]. unfold unit_normal. cbn [tcols fst snd cross scal].
  unfold dot, csum. cbn [get].
  match goal with |- context [sqrt (?x ^ 2 + ?y ^ 2 + ?z ^ 2)] =>
    replace (x ^ 2 + y ^ 2 + z ^ 2) with (x * x + y * y + z * z) by ring end.
  unfold Rdiv. f_equal; [f_equal|]; apply Rmult_comm.
Qed.

Lemma dot_scal : forall k u v, dot (scal k u) v = k * dot u v.
Proof. intros k u v. mats. unfold dot, csum. cbn. ring. Qed.
Lemma dot_comm : forall u v, dot u v = dot v u.
Proof. intros u v. mats. unfold dot, csum. cbn. ring. Qed.
Lemma cross_dot : forall u v, dot (cross u v) u = 0 /\ dot (cross u v) v = 0.
Proof. intros u v. mats. unfold dot, csum. cbn. split; ring. Qed.

Lemma normal_ok : forall J s, det3 J <> 0 ->
  let n := unit_normal (tr_Jacobian_matrix J s) in
  dot n n = 1 /\ dot n (col J (first s)) = 0 /\ dot n (col J (second s)) = 0 /\
  exists k, 0 < k /\ dot n (col J (across s)) = k * det3 J.
Proof.
  intros J s H n. unfold n. rewrite unit_normal_form.
  set (w := cross _ _).
  assert (P : 0 < dot w w) by (apply norm2_pos; exists (col J (across s)); unfold w; rewrite <- (det_cross J s); exact H).
  assert (Q : 0 < sqrt (dot w w)) by (apply sqrt_lt_R0; exact P).
  rewrite !dot_scal, (dot_comm w (scal _ w)), dot_scal.
  pose proof (cross_dot (fst (tcols (tr_Jacobian_matrix J s))) (snd (tcols (tr_Jacobian_matrix J s)))) as (C1 & C2).
  fold w in C1, C2. rewrite tr_cols in C1, C2.
  split; [|split; [|split]].
  - rewrite <- (sqrt_sqrt (dot w w)) at 3 by lra. field. lra.
  - destruct s; cbn [fst snd] in C1, C2; rewrite ?C1, ?C2; ring.
  - destruct s; cbn [fst snd] in C1, C2; rewrite ?C1, ?C2; ring.
  - exists (/ sqrt (dot w w)). split; [apply Rinv_0_lt_compat; exact Q|]. unfold w.
    rewrite <- (det_cross J s). reflexivity.
Qed.

Lemma outward_scal : forall J s, outward_normal J s = scal (if upper s then 1 else -1) (unit_normal J).
Proof.
  intros J s. unfold outward_normal. destruct (unit_normal J) as [[x y] z].
  destruct s; cbn [upper scal]; repeat f_equal; ring.
Qed.

Lemma outward_ok : forall J s, det3 J <> 0 ->
  (points_out (outward_normal (tr_Jacobian_matrix J s) s) J s <-> 0 < det3 J).
Proof.
  intros J s H. destruct (normal_ok J s H) as (_ & _ & _ & k & K & E).
  unfold points_out. rewrite outward_scal, dot_scal, E. destruct (upper s); split; intro; nra.
Qed.

(* the element at the other side of the trace element *)
Lemma outward_neighbour : forall J J' s, det3 J <> 0 -> det3 J' <> 0 ->
  col J (first s) = col J' (first s) -> col J (second s) = col J' (second s) ->
  (points_out (outward_normal (tr_Jacobian_matrix J s) (opposite s)) J' (opposite s) <-> 0 < det3 J').
Proof.
  intros J J' s H H' E1 E2.
  assert (T : tr_Jacobian_matrix J s = tr_Jacobian_matrix J' (opposite s)).
  { mats. unfold col, ent in E1, E2. destruct s; cbn [first second mrow get opposite tr_Jacobian_matrix] in *;
    injection E1 as -> -> ->; injection E2 as -> -> ->; reflexivity. }
  rewrite T. apply outward_ok; exact H'.
Qed.

(* ---- inverse of the metric of a side ---- *)
Lemma tr_left_inverse : forall J s, det3 J <> 0 ->
  match tr_inverse_Jacobian_matrix (ct_inverse_Jacobian_matrix J) s, tcols (tr_Jacobian_matrix J s) with
  | (r0, r1), (c0, c1) => dot r0 c0 = 1 /\ dot r0 c1 = 0 /\ dot r1 c0 = 0 /\ dot r1 c1 = 1
  end.
Proof.
  intros J s H. pose proof (rows_cols J H) as Q. rewrite tr_cols. unfold tr_inverse_Jacobian_matrix.
  unfold vrow in Q. set (K := ct_inverse_Jacobian_matrix J) in *. destruct K as [[r0 r1] r2].
  assert (Q' : forall i j, dot (mrow (r0, r1, r2) i) (col J j) = delta i j) by exact Q.
  destruct s; cbn [first second];
    (repeat split);
    first [exact (Q' cX cX)|exact (Q' cX cY)|exact (Q' cX cZ)|exact (Q' cY cX)|exact (Q' cY cY)
          |exact (Q' cY cZ)|exact (Q' cZ cX)|exact (Q' cZ cY)|exact (Q' cZ cZ)].
Qed.
