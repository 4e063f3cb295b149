(* The dual coboundary as integration by parts; mass matrices of dual trace
   forms; the prime of the dual coboundary. *)
From Coq Require Import Reals List Arith ZArith Lia Lra.
From Verif Require Import Prelude AssembleModel RingSum SpaceModel SpaceSpec TfiModel TfiSpec CtModel CtSpec DiscModel DiscSpec DiscProofs2 ReconModel ReconSpec ReconProofs ReconProofs2 ReconProofs3 ReconProofs4.
From Verif Require Import TrfModel TrfSpec TrfProofs TrfProofs2 TrfProofs3 TrfProofs4 AdfModel AdfSpec AdfProofs AdfProofs2.
Import ListNotations.
Open Scope R_scope.

(* ---------- block diagonal matrices ---------- *)
Lemma pairing_app a b c d : length a = length b -> pairing (a ++ c) (b ++ d) = pairing a b + pairing c d.
Proof.
  revert b. induction a as [|x a IH]; intros [|y b] H; try discriminate; [unfold pairing; cbn [app combine]; unfold rsum at 2; cbn; ring|].
  unfold pairing in *. cbn [app combine]. rewrite !rsum_cons, IH by (cbn in H; lia). ring.
Qed.
Lemma pairing_flat {A} (f g : A -> list R) l : (forall a, In a l -> length (f a) = length (g a)) -> pairing (flat_map f l) (flat_map g l) = rsum l (fun a => pairing (f a) (g a)).
Proof.
  induction l as [|a l IH]; intros H; [reflexivity|]. cbn [flat_map]. rewrite rsum_cons, pairing_app by (apply H; left; reflexivity). rewrite IH; [reflexivity|]. intros b I. apply H. right. exact I.
Qed.
Lemma pairing_zero_r n r : pairing (repeat 0 n) r = 0.
Proof. apply pairing_zero_l. intros i _. destruct (Nat.lt_ge_cases i n); [apply nth_repeat|apply nth_overflow; rewrite repeat_length; assumption]. Qed.
Lemma times_pairing M c : times M c = map (fun row => pairing row c) M.
Proof. reflexivity. Qed.
Lemma times_bdiag {A} (F : A -> matrix) (f : A -> list R) l : (forall a, In a l -> has_shape (F a) (length (f a)) (length (f a))) ->
  length (bdiag (map F l)) = length (flat_map f l) /\ times (bdiag (map F l)) (flat_map f l) = flat_map (fun a => times (F a) (f a)) l.
Proof.
  induction l as [|a l IH]; intros H; [split; reflexivity|]. destruct IH as (L & T); [intros; apply H; right; assumption|]. destruct (H a (or_introl eq_refl)) as (La & Ra).
  cbn [map bdiag flat_map]. cbv zeta. split; [rewrite !app_length, !map_length, La, L; reflexivity|].
  rewrite times_pairing, map_app, !map_map, <- T. f_equal.
  - apply map_ext_in. intros row I. rewrite pairing_app by (apply Ra; exact I). rewrite pairing_zero_r, Rplus_0_r. reflexivity.
  - rewrite times_pairing. apply map_ext. intros row. rewrite pairing_app by (rewrite repeat_length; exact La). rewrite pairing_zero_r, Rplus_0_l. reflexivity.
Qed.
Lemma pairing_scal x a b : pairing (map (Rmult x) a) b = x * pairing a b.
Proof.
  revert b. induction a as [|y a IH]; intros [|z b]; try (unfold pairing, rsum; cbn; ring). unfold pairing in *. cbn [map combine]. rewrite !rsum_cons, IH. cbn [fst snd]. ring.
Qed.
Lemma bilinear_pairing M a b : bilinear M a b = pairing a (times M b).
Proof. reflexivity. Qed.
Lemma end_sign s : IZR (outward_sign (on_the s)) = end_pt s.
Proof. destruct s; reflexivity. Qed.
Lemma mass_shape k sp q J s : has_shape (trf_mass k sp q J s) (nface k sp s) (nface k sp s).
Proof. rewrite trf_mass_kmat. apply shape_kmat. Qed.
Lemma restrict_len p ts s c : length c = length (cells p ts) -> length (restrict_to p ts s c) = length (side_cells p ts s).
Proof.
  intros L. unfold restrict_to, side_cells. rewrite map_length. clear - L. revert c L. induction (cells p ts) as [|e l IH]; intros [|x c] L; try discriminate; [reflexivity|].
  cbn [combine filter fst]. destruct (on_side p (on_the s) e); cbn [length]; rewrite IH by (cbn in L; lia); reflexivity.
Qed.
Lemma trace_pairing k sp q J v y c ts : length v = length (cells (degrees sp) (types_of k)) -> y = signed_traces outward_sign (degrees sp) (types_of k) v -> side_pieces k sp c ts ->
  pairing y (times (mass6 k sp q J) c) = outward_sum (fun s => bilinear (trf_mass k sp q J s) (restrict_to (degrees sp) (types_of k) s v) (ts s)).
Proof.
  intros Lv -> (-> & Lt). unfold mass6. destruct (times_bdiag (trf_mass k sp q J) ts all_sides) as (_ & E); [intros s _; rewrite Lt; apply mass_shape|].
  etransitivity; [apply (f_equal (pairing _)); exact E|]. clear E.
  unfold signed_traces. rewrite pairing_flat.
  - apply rsum_ext. intros s _. rewrite pairing_scal, end_sign. reflexivity.
  - intros s _. rewrite map_length, times_len, restrict_len by exact Lv. symmetry. apply mass_shape.
Qed.

(* ---------- integration by parts ---------- *)
Section Parts.
Variables (g : Grid) (sp : Space3) (q qt : Rule3) (J : ejac) (same orth : bool).
Hypothesis B : basis3_of g sp.
Hypothesis En : ends_ok g (pdeg (s0 sp)) (pdeg (s1 sp)) (pdeg (s2 sp)).
Hypothesis Rq : rules_ok q.
Hypothesis Rt : rules_ok qt.
Hypothesis N : on_grid (qmesh q) (fun x y z => det3 (J x y z) <> 0).
Hypothesis D : orth = true -> on_grid (qmesh q) (fun x y z => diagonal (J x y z)).
Hypothesis At : forall s, on_grid (side_mesh s (qmesh qt)) (fun x y z => area_vec (J x y z) s <> zero_vec).
Lemma on_end s m : on_grid (side_mesh s m) (fun x y z => TfiModel.get (x, y, z) (across s) = end_pt s).
Proof. intros x y z X Y Z. destruct s; cbn in X, Y, Z |- *; repeat match goal with H : _ \/ False |- _ => destruct H as [H|[]]; symmetry; exact H end. Qed.
(* the dual 3-form with prime P and the dual 2-trace with prime T: the prime U
   of the dual 2-form is the weak gradient *)
Theorem weak_grad c3 ct u2 ts (P : R -> R -> R -> R) (U : R -> R -> R -> vec) (T : tside -> R -> R -> R -> R) :
  weak_d 3 (degrees sp) (times (inner3 sp sp q J) c3) (times (mass6 D2 sp qt J) ct) (times (inner2 same orth sp sp q J) u2) -> side_pieces D2 sp ct ts ->
  on_grid (qmesh q) (fun x y z => pulls3 (J x y z) (P x y z) (hat3 sp c3 x y z)) ->
  on_grid (qmesh q) (fun x y z => pulls2 (J x y z) (U x y z) (fun d => hat2 sp u2 d x y z)) ->
  (forall s, on_grid (side_mesh s (qmesh qt)) (fun x y z => T s x y z * norm (area_vec (J x y z) s) = side_hat D2 sp s (ts s) x y z)) ->
  forall v w (V : R -> R -> R -> vec) (W : R -> R -> R -> R), length v = length (form_cells 2 (degrees sp)) -> is_d 2 (degrees sp) v w ->
  on_grid (qmesh q) (fun x y z => pulls2 (J x y z) (V x y z) (fun d => hat2 sp v d x y z)) ->
  (forall s, on_grid (side_mesh s (qmesh qt)) (fun x y z => pulls2 (J x y z) (V x y z) (fun d => hat2 sp v d x y z))) ->
  on_grid (qmesh q) (fun x y z => pulls3 (J x y z) (W x y z) (hat3 sp w x y z)) ->
  quad3 q (fun x y z => det3 (J x y z) * dot (V x y z) (U x y z)) =
  - quad3 q (fun x y z => det3 (J x y z) * (W x y z * P x y z)) +
  outward_sum (fun s => quad3 (side_rule s qt) (fun x y z => norm (area_vec (J x y z) s) * (component (area_vec (J x y z) s) (V x y z) * T s x y z))).
Proof.
  intros (_ & H) Sp HP HU HT v w V W Lv Hd HV HVs HW.
  specialize (H v w (signed_traces outward_sign (degrees sp) (types_of D2) v) Lv Hd eq_refl). cbn [sign_E sign_T Nat.sub] in H. rewrite (trace_pairing D2 sp qt J v _ ct ts Lv eq_refl Sp) in H.
  rewrite <- !bilinear_pairing in H. rewrite (inner2_ok sp sp q J same orth Rq N D (fun _ => eq_refl) v u2 V U HV HU) in H. rewrite (inner3_ok sp sp q J Rq N w c3 W P HW HP) in H. rewrite H.
  rewrite Rmult_1_l. assert (O : forall f f' : tside -> R, (forall s, f s = f' s) -> outward_sum f = outward_sum f') by (intros f f' E; apply rsum_ext; intros s _; rewrite E; reflexivity).
  rewrite (O _ (fun s => quad3 (side_rule s qt) (fun x y z => norm (area_vec (J x y z) s) * (component (area_vec (J x y z) s) (V x y z) * T s x y z)))); [lra|].
  intros s. apply (trf_mass2_ok sp qt J s _ _ _ _ Rt). intros x y z X Y Z. split; [apply At; assumption|]. split; [|apply HT; assumption].
  pose proof (At s x y z X Y Z) as A. cbv beta in A. pose proof (norm_pos _ A).
  rewrite (trace_hat g sp B En D2 s v Lv x y z (on_end s (qmesh qt) x y z X Y Z)). cbn [hat_of]. rewrite <- (HVs s x y z X Y Z (across s)). unfold component, area_vec in *. field. lra.
Qed.
(* the dual 1-form with prime P and the dual 0-trace with prime T: the prime of
   the dual 0-form is the weak divergence *)
Theorem weak_div c1 ct u0 ts (P : R -> R -> R -> vec) :
  weak_d 1 (degrees sp) (times (inner1 same orth sp sp q J) c1) (times (mass6 D0 sp qt J) ct) (times (inner0 sp sp q J) u0) -> side_pieces D0 sp ct ts ->
  on_grid (qmesh q) (fun x y z => pulls1 (J x y z) (P x y z) (fun d => hat1 sp c1 d x y z)) ->
  forall v w (W : R -> R -> R -> vec), length v = length (form_cells 0 (degrees sp)) -> is_d 0 (degrees sp) v w ->
  on_grid (qmesh q) (fun x y z => pulls1 (J x y z) (W x y z) (fun d => hat1 sp w d x y z)) ->
  quad3 q (fun x y z => det3 (J x y z) * (hat0 sp v x y z * hat0 sp u0 x y z)) =
  - quad3 q (fun x y z => det3 (J x y z) * dot (W x y z) (P x y z)) +
  outward_sum (fun s => quad3 (side_rule s qt) (fun x y z => norm (area_vec (J x y z) s) * (hat0 sp v x y z * side_hat D0 sp s (ts s) x y z))).
Proof.
  intros (_ & H) Sp HP v w W Lv Hd HW.
  specialize (H v w (signed_traces outward_sign (degrees sp) (types_of D0) v) Lv Hd eq_refl). cbn [sign_E sign_T Nat.sub] in H. rewrite (trace_pairing D0 sp qt J v _ ct ts Lv eq_refl Sp) in H.
  rewrite <- !bilinear_pairing in H. rewrite (inner0_ok sp sp q J Rq v u0) in H. rewrite (inner1_ok sp sp q J same orth Rq N D (fun _ => eq_refl) w c1 W P HW HP) in H. rewrite H.
  rewrite Rmult_1_l. assert (O : forall f f' : tside -> R, (forall s, f s = f' s) -> outward_sum f = outward_sum f') by (intros f f' E; apply rsum_ext; intros s _; rewrite E; reflexivity).
  rewrite (O _ (fun s => quad3 (side_rule s qt) (fun x y z => norm (area_vec (J x y z) s) * (hat0 sp v x y z * side_hat D0 sp s (ts s) x y z)))); [lra|].
  intros s. rewrite (trf_mass0_ok sp qt J s _ _ Rt). apply quad3_ext; [|apply rules_side; exact Rt]. rewrite qmesh_side. intros x y z X Y Z.
  rewrite (trace_hat g sp B En D0 s v Lv x y z (on_end s (qmesh qt) x y z X Y Z)). reflexivity.
Qed.
End Parts.

(* the sum of the weak divergence *)
Theorem weak_sum px py pz d ts r : let p := [px; py; pz] in weak_d 1 p d (flat_map ts all_sides) r -> (forall s, length (ts s) = length (side_cells p nodes3 s)) ->
  lsum r = outward_sum (fun s => lsum (ts s)).
Proof.
  intros p (L & H) Ls. cbn [Nat.sub] in L, H. rewrite <- (ones_pairing (length (form_cells 0 p)) r L).
  destruct (d_exists px py pz 0 (repeat 1 (length (form_cells 0 p))) ltac:(lia)) as (u & Hu).
  rewrite (H _ u _ (repeat_length _ _) Hu eq_refl). rewrite (pairing_zero_l u d) by (intros i _; apply (d_ones px py pz u Hu)).
  cbn [sign_E sign_T]. unfold signed_traces. rewrite pairing_flat.
  - rewrite Rmult_0_r, Rplus_0_l, Rmult_1_l. apply rsum_ext. intros s _. rewrite pairing_scal, end_sign. f_equal.
    rewrite <- (ones_pairing (length (side_cells p nodes3 s)) (ts s) (Ls s)). f_equal.
    unfold restrict_to, side_cells, form_cells. cbn [form_types]. induction (cells p nodes3) as [|e l IH]; [reflexivity|]. cbn [length repeat combine filter fst].
    destruct (on_side p (on_the s) e); cbn [map snd length repeat]; rewrite IH; reflexivity.
  - intros s _. rewrite map_length, Ls. apply restrict_len. apply repeat_length.
Qed.

(* ---------- the primes ---------- *)
Lemma lookup_in {A} i (l : list (nat * A)) : NoDup (map fst l) -> forall a, In (i, a) l -> lookup Nat.eqb i l = Some a.
Proof.
  induction l as [|(j, b) l IH]; intros ND a I; [destruct I|]. cbn [map fst] in ND. inversion ND as [|? ? Nj ND']; subst. cbn [lookup]. destruct I as [E|I].
  - injection E as -> ->. rewrite Nat.eqb_refl. reflexivity.
  - destruct (Nat.eqb_spec i j) as [->|]; [|apply IH; assumption]. exfalso. apply Nj. apply in_map_iff. exists (j, a). split; [reflexivity|exact I].
Qed.
Theorem primes_ok px py pz els k j M MT M' iM' st stT l st' n : Forall (fun n => (1 <= n)%nat) [px; py; pz] -> NoDup els -> let p := [px; py; pz] in
  n = length (form_cells (k - 1) p) ->
  (forall i, In i els -> inverse_of (M' i) (iM' i) n) ->
  (forall i, In i els -> has_shape (M i) (length (form_cells k p)) (length (form_cells k p))) ->
  (forall i, In i els -> has_shape (MT i) (length (trace_cells (k - 1) p)) (length (trace_cells (k - 1) p))) ->
  dual_coboundary els p k j (dual_get M (Some st)) (dual_get MT (Some stT)) = Some l -> dual_set els n iM' l = Some (Some st') ->
  forall i, In i els -> exists c t u, lookup Nat.eqb i st = Some c /\ lookup Nat.eqb i stT = Some t /\ lookup Nat.eqb i st' = Some u /\
    weak_d k p (times (M i) c) (times (MT i) t) (times (M' i) u).
Proof.
  intros Fp ND p -> INV SM ST HC HS i I. destruct (proj1 (coboundary_iff px py pz Fp els k j _ _) (ex_intro _ l HC)) as (Hk & -> & _).
  assert (POS := rows_pos px py pz Fp (k - 1) ltac:(lia)). fold p in POS. destruct (coboundary_ok px py pz Fp els k (k - 1) _ _ l HC) as (Kl & Wl). fold p in Wl.
  destruct (set_get els _ M' iM' INV POS l _ HS) as (_ & G). assert (C := proj1 (dual_set_iff els _ M' iM' INV POS l) (ex_intro _ _ HS)).
  destruct (proj2 C i I) as (r & Hr & Lr). specialize (G i I). rewrite Hr in G.
  assert (Ir : In (i, r) l). { clear - Hr. induction l as [|(j, b) l IH]; [discriminate|]. cbn [lookup] in Hr. destruct (Nat.eqb_spec i j) as [->|]; [injection Hr as <-; left; reflexivity|right; apply IH; exact Hr]. }
  destruct (Wl i r Ir) as (d & t & Hd & Ht & W). unfold dual_get in Hd, Ht, G.
  destruct (lookup Nat.eqb i st) as [c|]; [|discriminate]. destruct (lookup Nat.eqb i stT) as [tt|]; [|discriminate]. destruct (lookup Nat.eqb i st') as [u|]; [|discriminate].
  exists c, tt, u. split; [reflexivity|]. split; [reflexivity|]. split; [reflexivity|].
  assert (PK := rows_pos px py pz Fp k ltac:(lia)). fold p in PK.
  assert (MV : forall A x n' y, has_shape A n' n' -> (0 < n')%nat -> matvec A x = Some y -> y = times A x).
  { intros A x n' y S P Q. destruct (Nat.eq_dec (length x) n') as [E|E]; [|rewrite (matvec_bad A x n' n' S P E) in Q; discriminate]. rewrite (matvec_times A x n') in Q by (rewrite E; exact S). injection Q as <-. reflexivity. }
  rewrite <- (MV _ _ _ _ (SM i I) PK Hd). rewrite <- (MV _ _ _ _ (proj1 (INV i I)) POS G).
  assert (PT : (0 < length (trace_cells (k - 1) p))%nat).
  { clear - Fp Hk. inversion Fp as [|? ? P1 F1]. inversion F1 as [|? ? P2 F2]. inversion F2 as [|? ? P3 F3]. subst. unfold p.
    assert (NT := ntrace_form px py pz Fp). destruct k as [|[|[|[|k]]]]; try lia; [specialize (NT 0%nat ltac:(lia))|specialize (NT 1%nat ltac:(lia))|specialize (NT 2%nat ltac:(lia))]; cbn [Nat.sub]; rewrite <- NT; unfold ntrace, on0, on1, on2; nia. }
  rewrite <- (MV _ _ _ _ (ST i I) PT Ht). exact W.
Qed.

(* ---------- mass matrices of dual trace forms ---------- *)
Section Shared.
Variables (F F' : coord -> R -> R -> R -> R) (J J' : R -> R -> R -> mat3) (s : tside).
Hypothesis M : meets s F F'.
Hypothesis DJ : jacobian_of F J.
Hypothesis DJ' : jacobian_of F' J'.
Lemma side_points_ep t m : side_points t m = let (a, b) := side_pair t (mx m) (my m) (mz m) in map (fun ab => full_ep t (fst ab) (snd ab)) (grid2F a b).
Proof.
  destruct t; unfold side_points, side_pair, mesh3, grid2F; cbn [full_ep]; try (cbn [flat_map]; rewrite app_nil_r);
  match goal with |- flat_map _ ?l = _ => induction l as [|z ? IH]; [reflexivity|]; cbn [flat_map]; rewrite map_app, <- IH; f_equal; rewrite map_map; cbn [fst snd map flat_map]; rewrite ?app_nil_r; try apply flat_single; reflexivity end.
Qed.
Theorem mass_shared k sp q : trf_mass k sp q J s = trf_mass k sp q J' (opposite s).
Proof.
  unfold trf_mass. cbv zeta. replace (side_basis k sp (qmesh q) (opposite s)) with (side_basis k sp (qmesh q) s) by (destruct s; reflexivity).
  replace (side_weights_q q (opposite s)) with (side_weights_q q s) by (destruct s; reflexivity).
  f_equal. f_equal. rewrite !side_points_ep. replace (side_pair (opposite s) (mx (qmesh q)) (my (qmesh q)) (mz (qmesh q))) with (side_pair s (mx (qmesh q)) (my (qmesh q)) (mz (qmesh q))) by (destruct s; reflexivity).
  destruct (side_pair s (mx (qmesh q)) (my (qmesh q)) (mz (qmesh q))) as [a b]. rewrite !map_map. apply map_ext. intros ab.
  pose proof (same_metric F F' J J' s M DJ DJ' ab) as E. unfold side_at in E.
  destruct (full_ep s (fst ab) (snd ab)) as [[x y] z], (full_ep (opposite s) (fst ab) (snd ab)) as [[x' y'] z']. cbn [at_pt] in E. rewrite E. reflexivity.
Qed.
End Shared.
Section Mew.
Variables (MAP : list (nat * list nat)) (mk : nat -> mark) (TEW : nat -> option matrix) (W : nat -> matrix).
Hypothesis OK : forall e, In e MAP -> mew_new TEW (snd e) = Some (W (fst e)).
Hypothesis SAME : forall e e' s, In e MAP -> In e' MAP -> mk (fst e) = MStr s -> mk (fst e') = MStr s -> W (fst e) = W (fst e').
Theorem mew_ok : mew_mass MAP mk TEW = Some (map (fun e => (fst e, W (fst e))) MAP).
Proof.
  unfold mew_mass. enough (H : forall l c out, incl l MAP -> (forall s A, lookup Nat.eqb s c = Some A -> exists e, In e MAP /\ mk (fst e) = MStr s /\ A = W (fst e)) ->
    exists c', fold_left (mew_step mk TEW) l (Some (c, out)) = Some (c', out ++ map (fun e => (fst e, W (fst e))) l)).
  { destruct (H MAP [] [] (incl_refl _)) as (c' & ->); [discriminate|]. reflexivity. }
  induction l as [|e l IH]; intros c out Il IC; [exists c; cbn [map]; rewrite app_nil_r; reflexivity|]. cbn [fold_left map].
  assert (Ie : In e MAP) by (apply Il; left; reflexivity). assert (Il' : incl l MAP) by (intros x Hx; apply Il; right; exact Hx).
  replace (out ++ (fst e, W (fst e)) :: map (fun e0 => (fst e0, W (fst e0))) l) with ((out ++ [(fst e, W (fst e))]) ++ map (fun e0 => (fst e0, W (fst e0))) l) by (rewrite <- app_assoc; reflexivity).
  unfold mew_step at 2. destruct (mk (fst e)) as [s|n] eqn:Em.
  - destruct (lookup Nat.eqb s c) as [A|] eqn:El.
    + destruct (IC s A El) as (e' & Ie' & Em' & ->). rewrite (SAME e' e s Ie' Ie Em' Em). apply IH; assumption.
    + rewrite (OK e Ie). apply IH; [exact Il'|]. intros s' A. cbn [lookup]. destruct (Nat.eqb_spec s' s) as [->|]; [|apply IC]. intros Q. injection Q as <-. exists e. auto.
  - rewrite (OK e Ie). apply IH; assumption.
Qed.
End Mew.
(* ... from the Jacobian matrices of the elements *)
Lemma mass6_ext k sp q (J J' : ejac) : (forall x y z, J x y z = J' x y z) -> mass6 k sp q J = mass6 k sp q J'.
Proof.
  intros H. unfold mass6. f_equal. apply map_ext. intros s. unfold trf_mass. cbv zeta. f_equal. f_equal. apply map_ext. intros [[x y] z].
  unfold side_metric. cbn [at_pt]. rewrite H. reflexivity.
Qed.
Theorem mew_geom MAP mk TEW (F : nat -> coord -> R -> R -> R -> R) (J : nat -> ejac) k sp q ce cs :
  (forall e, jacobian_of (F e) (J e)) ->
  (forall e ts, In (e, ts) MAP -> exists t, ts = map t all_sides /\ forall s, seen_from F e s (ce (t s)) (cs (t s)) /\
    TEW (t s) = Some (trf_mass k sp q (J (ce (t s))) (cs (t s)))) ->
  (forall e e' m, mk e = MStr m -> mk e' = MStr m -> forall x y z, J e x y z = J e' x y z) ->
  mew_mass MAP mk TEW = Some (map (fun e => (fst e, mass6 k sp q (J (fst e)))) MAP).
Proof.
  intros HJ HM HK. apply (mew_ok MAP mk TEW (fun e => mass6 k sp q (J e))).
  - intros (e, ts) I. cbn [fst snd]. destruct (HM e ts I) as (t & -> & H). unfold mew_new. rewrite map_map.
    rewrite (all_some_map _ (trf_mass k sp q (J e))); [reflexivity|]. intros s _. destruct (H s) as (S & ->). f_equal.
    destruct S as [(-> & ->)|(-> & M)]; [reflexivity|]. symmetry. apply (mass_shared (F e) (F (ce (t s))) (J e) (J (ce (t s))) s M (HJ e) (HJ _)).
  - intros e e' s _ _ A B. apply mass6_ext. apply (HK _ _ s); assumption.
Qed.
