(* Projections and the gradient tensor. *)
From Coq Require Import Reals List Lia Lra Arith ZArith.
From Verif Require Import TfiModel TfiSpec CtModel CtSpec RingSum SpaceModel SpaceSpec DiscModel DiscSpec DiscProofs DiscProofs2 DiscProofs3 ReconModel ReconSpec ReconProofs ReconProofs2 ReconProofs3 ReconProofs4 ReconProofs5.
From Verif Require Import CrossModel CrossSpec CrossProofs CrossProofs2 ErrSpec ErrProofs FarSpec FarProofs FarProofs3 AdfProofs3 VdModel VdSpec.
Import ListNotations.
Open Scope R_scope.

Lemma vrecon_map k s m J orth c v : form_at (kd k) s m J c v -> on_grid m (fun x y z => det3 (J x y z) <> 0) -> (orth = true -> on_grid m (fun x y z => diagonal (J x y z))) ->
  vrecon k s m J orth c = map (at_pt v) (points m).
Proof.
  intros (L & V) N D. destruct k; cbn [kd cells_of vrecon] in *; [rewrite (recon1_map s m J orth c L)|rewrite (recon2_map s m J orth c L)];
    apply map_ext_in; intros p I; assert (Np := in_points m p _ N I); assert (Vp := in_points m p _ V I); assert (Dp := fun E => in_points m p _ (D E) I);
    destruct p as [[x y] z]; cbn [at_pt] in *.
  - apply (pulls1_one (J x y z) _ _ (fun d => hat1 s c d x y z) Np); [|exact Vp].
    intros d. etransitivity; [exact (value1_pulls orth (J x y z) _ Np Dp d)|]. apply (get_hats (hat1 s c)).
  - apply (pulls2_one (J x y z) _ _ (fun d => hat2 s c d x y z) Np); [|exact Vp].
    intros d. etransitivity; [exact (value2_pulls orth (J x y z) _ Np Dp d)|]. apply (get_hats (hat2 s c)).
Qed.
(* the projection is the discretization of the components of the field *)
Theorem proj3_ok k g s F J orth c v : form_at (kd k) s (grid_mesh g) J c (through (value v) F) -> on_grid (grid_mesh g) (fun x y z => det3 (J x y z) <> 0) ->
  (orth = true -> on_grid (grid_mesh g) (fun x y z => diagonal (J x y z))) ->
  proj3 k s (grid_mesh g) J orth c = (disc0 (gx g) (gy g) (gz g) F (v cX), disc0 (gx g) (gy g) (gz g) F (v cY), disc0 (gx g) (gy g) (gz g) F (v cZ)).
Proof.
  intros V N D. unfold proj3. rewrite (vrecon_map k s (grid_mesh g) J orth c _ V N D), !map_map. unfold disc0.
  f_equal; [f_equal|]; apply map_ext; intros [[x y] z]; reflexivity.
Qed.

(* ---------- the gradient tensor ---------- *)
Section Tensor.
Variables (g : Grid) (s : Space3).
Hypotheses (GO : grid_ok g) (B : basis3_of g s) (X : rules_exact g s).
Variables (F : coord -> R -> R -> R -> R) (J : R -> R -> R -> mat3).
Hypothesis HJ : jacobian_of F J.
Lemma grad_of_ok m orth E f G c : E10 (degrees s) = Some E -> length c = length (cells (degrees s) nodes3) -> grad_inside F f G ->
  in_element (fun x y z => through f F x y z = hat0 s c x y z) -> inside_grid m -> on_grid m (fun x y z => det3 (J x y z) <> 0) ->
  (orth = true -> on_grid m (fun x y z => diagonal (J x y z))) ->
  grad_of s m J orth E (disc0 (gx g) (gy g) (gz g) F f) = map (at_pt (through (value G) F)) (points m).
Proof.
  intros HE L HG Hf I N D. rewrite (disc_recon0 g s GO B X F f c L Hf). unfold grad_of. destruct (mat_vec_ok E c (nbasis k1 s)) as (Lu & M).
  apply (vrecon_map vk1); [|exact N|exact D]. split; [rewrite Lu; apply nbasis_ok|]. apply on_inside; [exact I|].
  apply (recon_grad g s B F J HJ f G E c _ HE L); [rewrite Lu; apply (nbasis_ok k1)|exact M|exact HG|].
  intros x y z A A' A''. apply Hf; unfold in_ref; lra.
Qed.
Lemma map2_same {A B' C D'} (h : B' -> C -> D') (f : A -> B') (f' : A -> C) l : map2 h (map f l) (map f' l) = map (fun a => h (f a) (f' a)) l.
Proof. induction l as [|a l IH]; [reflexivity|]. cbn [map map2]. rewrite IH. reflexivity. Qed.
(* row i of the tensor is the gradient of component i *)
Theorem grad_tensor_ok k m orth c v D : (exists E, E10 (degrees s) = Some E) -> form_at (kd k) s (grid_mesh g) J c (through (value v) F) ->
  on_grid (grid_mesh g) (fun x y z => det3 (J x y z) <> 0) -> on_grid m (fun x y z => det3 (J x y z) <> 0) ->
  (orth = true -> on_grid (grid_mesh g) (fun x y z => diagonal (J x y z)) /\ on_grid m (fun x y z => diagonal (J x y z))) -> inside_grid m ->
  in_space0 s F v ->
  deriv_inside F v D ->
  exists T, grad_tensor k s (grid_mesh g) m J orth c = Some T /\
    Forall2 (fun p t => forall i j, ent t i j = at_pt (through (D i j) F) p) (points m) T.
Proof.
  intros (E & HE) V N N' O I Hv HD. unfold grad_tensor. change [pdeg (s0 s); pdeg (s1 s); pdeg (s2 s)] with (degrees s). rewrite HE.
  rewrite (proj3_ok k g s F J orth c v V N (fun e => proj1 (O e))).
  assert (A : forall i, grad_of s m J orth E (disc0 (gx g) (gy g) (gz g) F (v i)) = map (at_pt (through (value (D i)) F)) (points m)).
  { intros i. destruct (Hv i) as (ci & Li & Hi). apply (grad_of_ok m orth E (v i) (D i) ci HE Li); try assumption; [|intros e; apply (O e)].
    intros x y z a b d. apply HD; assumption. }
  rewrite !A, !map2_same. eexists. split; [reflexivity|]. clear. induction (points m) as [|[[x y] z] l IH]; constructor; [|exact IH].
  intros i j. destruct i, j; reflexivity.
Qed.
End Tensor.

(* ---------- 1-forms as 2-forms ---------- *)
Lemma mat_c_times M c : mat_c M c = times M c.
Proof.
  unfold mat_c, times. apply map_ext. intros row. revert c. induction row as [|a row IH]; intros [|b c]; try reflexivity.
  cbn [map2 combine lsum fold_right]. rewrite rsum_cons, <- IH. reflexivity.
Qed.
Section Project.
Variables (inv : list (list R) -> list (list R)) (so s : Space3) (q : Rule3) (J : R -> R -> R -> mat3) (orth : bool).
Hypotheses (Rq : rules_ok q) (Nd : nonzero_det q J) (Od : orth_ok q J orth).
Let n := length (cells (degrees so) faces3).
Let M := inner2 true orth so so q J.
Hypothesis Inv : inverse_of M (inv M) n.
Lemma wedge_len c : length (times (wedge12 so s q) c) = n.
Proof. unfold times. rewrite map_length, (wedge12_kmat so s q J false orth Rq Od) by discriminate. apply shape_kmat. Qed.
Lemma mass_len c : length (times M c) = n.
Proof. unfold times. rewrite map_length. apply Inv. Qed.
Lemma proj2_solves c : length (proj2 inv so s q J orth c) = n /\ times M (proj2 inv so s q J orth c) = times (wedge12 so s q) c.
Proof.
  unfold proj2. rewrite !mat_c_times. fold M. split; [unfold times at 1; rewrite map_length; apply Inv|]. apply Inv. apply wedge_len.
Qed.
Lemma field2 d : exists v, on_grid (qmesh q) (fun x y z => pulls2 (J x y z) (v x y z) (fun e => hat2 so d e x y z)).
Proof.
  exists (fun x y z => value2 false (ct_inverse_Jacobian_matrix (J x y z)) (hat2 so d cX x y z, hat2 so d cY x y z, hat2 so d cZ x y z)).
  intros x y z A B C e. rewrite (value2_pulls false (J x y z) _ (Nd x y z A B C)) by discriminate. destruct e; reflexivity.
Qed.
(* the fields of the two forms have the same inner products with all 2-forms *)
Theorem proj2_ok c v w : form_at k1 s (qmesh q) J c v -> form_at k2 so (qmesh q) J (proj2 inv so s q J orth c) w ->
  forall d t, form_at k2 so (qmesh q) J d t ->
  quad3 q (fun x y z => det3 (J x y z) * dot (t x y z) (w x y z)) = quad3 q (fun x y z => det3 (J x y z) * dot (t x y z) (v x y z)).
Proof.
  intros (_ & V) (_ & W) d t (_ & T). rewrite <- (inner2_ok so so q J true orth Rq Nd Od (fun _ => eq_refl) d _ t w T W).
  rewrite <- (wedge_ok so s q J Rq d c t v T V). rewrite !bilinear_pairing. fold M. rewrite (Logic.proj2 (proj2_solves c)). reflexivity.
Qed.
(* a field that is one of a 2-form is kept *)
Theorem proj2_exact c v d : form_at k1 s (qmesh q) J c v -> form_at k2 so (qmesh q) J d v -> VdModel.proj2 inv so s q J orth c = d.
Proof.
  intros (_ & V) (Ld & W). destruct (proj2_solves c) as (L & S). assert (E : times M d = times (wedge12 so s q) c).
  { apply (AdfProofs2.pairing_ext n); [apply mass_len|apply wedge_len|]. intros t Lt. destruct (field2 t) as (u & U). rewrite <- !bilinear_pairing.
    unfold M. rewrite (inner2_ok so so q J true orth Rq Nd Od (fun _ => eq_refl) t d u v U W). rewrite (wedge_ok so s q J Rq t c u v U V). reflexivity. }
  rewrite <- E in S. apply (f_equal (times (inv M))) in S. destruct Inv as (_ & _ & _ & I). rewrite (I _ L), (I _ Ld) in S. exact S.
Qed.
End Project.
