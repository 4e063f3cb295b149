(* C117-C121: reconstruction, derivatives, mass matrices and conformity of forms on triangular meshes. *)
From Coq Require Import Reals List Lra ZArith Arith.
From Verif Require Import CtModel RingSum SpaceModel SpaceSpec DiscModel DiscSpec DiscExample Disc2Model Disc2Spec Disc2Example ReconModel ReconSpec.
From Verif Require Import TriModel TriSpec TriExample TdiscModel TdiscSpec TdiscProofs TdiscProofs3 TdiscExample TreconModel TreconSpec.
From Verif Require Import TreconProofs TreconProofs2 TreconProofs3 TreconProofs4 TreconProofs5 TreconExample.
Import ListNotations.
Open Scope R_scope.

(* reconstructed 0-forms are the sum of the nodal functions, all nodes of the
   collapsed side being the first vertex *)
Theorem C117_nodes : forall P xi et c, array2 xi et (trecon0 P xi et c) (fun x y v => v = that0 P c x y).
Proof. exact trecon0_ok. Qed.
Print Assumptions C117_nodes.
Example C117_nodes_ex : nth_error (trecon0 P2 [0; 1 / 3] [0; 1] tc0) 3 = Some 4.
Proof.
  destruct (proj2 (trecon0_ok P2 [0; 1 / 3] [0; 1] tc0) 1%nat 1%nat (1 / 3) 1 eq_refl eq_refl) as (v & E & V).
  refine (eq_trans E _). rewrite V, <- tri_hat0. unfold through2, exf2. rewrite tct_x. unfold exA, exB, exC. cbn [fst snd]. f_equal. field.
Qed.
Theorem C117_vertex : forall n P c x, basis_of n P -> that0 P c x (nth 0 n 0) = nth 0 c 0.
Proof. exact that0_vertex. Qed.
Print Assumptions C117_vertex.
Example C117_vertex_ex : basis_of exN0 P2 /\ nth 0 exN0 0 = -1.
Proof. exact (conj P2_basis eq_refl). Qed.
Theorem C117_at_nodes : forall n P c i j, basis_of n P -> (i <= pdeg P)%nat -> (j <= pdeg P)%nat ->
  that0 P c (nth i n 0) (nth j n 0) = node_val (pdeg P) c i j.
Proof. exact that0_node. Qed.
Print Assumptions C117_at_nodes.
Example C117_at_nodes_ex : that0 P2 tc0 1 0 = 3.
Proof. exact (that0_node exN0 P2 tc0 2 1 P2_basis (le_n 2) (le_S 1 1 (le_n 1))). Qed.
(* ... 1-forms: the vector whose components along, or fluxes through, the axes are
   the sums of the basis functions of the edges with the signs of the transition *)
Theorem C117_edges : forall o P M e xi et J c, on_grid2 xi et (fun x y => det2 (J x y) <> 0) ->
  array2 xi et (trecon1 o P M e xi et J c) (fun x y v => tpulls1 o (J x y) v (fun d => that1 o P M e c d x y)).
Proof. exact trecon1_ok. Qed.
Print Assumptions C117_edges.
Example C117_edges_ex : on_grid2 (fst pos3) (fst pos3) (fun x y => det2 (tct_Jacobian_matrix exA exB exC x y) <> 0).
Proof. exact pos3_nonzero. Qed.
(* ... 2-forms *)
Theorem C117_faces : forall P xi et J c, on_grid2 xi et (fun x y => det2 (J x y) <> 0) ->
  array2 xi et (trecon2 P xi et J c) (fun x y v => tpulls2 (J x y) v (that2 P c x y)).
Proof. exact trecon2_ok. Qed.
Print Assumptions C117_faces.
Example C117_faces_ex : nth_error (trecon2 P2 [- (1 / 2); 0; 1 / 2] [- (1 / 2); 0; 1 / 2] (tct_Jacobian_matrix exA exB exC) tc2) 5 = Some 1.
Proof.
  destruct (proj2 (trecon2_ok P2 _ _ _ tc2 pos3_nonzero) 2%nat 1%nat (1 / 2) 0 eq_refl eq_refl) as (v & E & V).
  refine (eq_trans E _). f_equal. pose proof (tri_hat2 (1 / 2) 0) as H. unfold tpulls2 in V, H. rewrite exJ_det in V, H. lra.
Qed.
(* the reconstruction matrices applied to the cochain give the same *)
Theorem C117_matrices : forall o P M e xi et J c,
  times (trm0 P xi et) c = trecon0 P xi et c /\
  (let (a, b) := trm1 o P M e xi et J in components2 (trecon1 o P M e xi et J c) (times a c) (times b c)) /\
  times (trm2 P xi et J) c = trecon2 P xi et J c.
Proof. intros o P M e xi et J c. exact (conj (trm0_ok P xi et c) (conj (trm1_ok o P M e xi et J c) (trm2_ok P xi et J c))). Qed.
Print Assumptions C117_matrices.
Example C117_matrices_ex : nth_error (times (trm0 P2 [0; 1 / 3] [0; 1]) tc0) 3 = Some 4.
Proof. rewrite trm0_ok. exact C117_nodes_ex. Qed.

(* discretizing a reconstructed form gives the cochain back *)
Theorem C118_nodes : forall n P, basis_of n P -> nodes_ok n -> forall a b d f c, length c = tnb0 (pdeg P) ->
  (forall x y, in_ref x -> in_ref y -> through2 f (tct_mapping a b d) x y = that0 P c x y) ->
  tdisc0 (pdeg P) n (tct_mapping a b d) f = c.
Proof. exact tdisc_recon0. Qed.
Print Assumptions C118_nodes.
Example C118_nodes_ex : tdisc0 2 exN0 (tct_mapping exA exB exC) exf2 = tc0.
Proof. apply (tdisc_recon0 exN0 P2 P2_basis exN0_ok); [reflexivity|]. intros x y _ _. apply tri_hat0. Qed.
Theorem C118_edges : forall n P r0 r1, basis_of n P -> nodes_ok n -> exact_for n r0 P -> exact_for n r1 P -> points_open r0 -> points_open r1 ->
  forall o M e F J v c, length c = tnb1 (pdeg P) ->
  off_vertex (fun x y => tpulls1 o (J x y) (through2 (Disc2Spec.value2 v) F x y) (fun d => that1 o P M e c d x y)) ->
  tdisc1 o (pdeg P) n r0 r1 M e F J v = c.
Proof. exact tdisc_recon1. Qed.
Print Assumptions C118_edges.
Example C118_edges_ex :
  tdisc1 Inner 2 exN0 DiscExample.mid DiscExample.mid sq_sides 1 (tct_mapping exA exB exC) (tct_Jacobian_matrix exA exB exC) tv = tc1 /\
  tdisc1 Outer 2 exN0 DiscExample.mid DiscExample.mid sq_sides 1 (tct_mapping exA exB exC) (tct_Jacobian_matrix exA exB exC) tw = tc1o.
Proof.
  split; apply (tdisc_recon1 exN0 P2 _ _ P2_basis exN0_ok P2_exact P2_exact mid_open mid_open);
    [reflexivity|intros x y _ _; apply tri_hat1|reflexivity|intros x y _ _; apply tri_hat1o].
Qed.
Theorem C118_faces : forall n P r0 r1, basis_of n P -> nodes_ok n -> exact_for n r0 P -> exact_for n r1 P -> points_open r0 -> points_open r1 ->
  forall F J f c, length c = tnb2 (pdeg P) -> off_vertex (fun x y => tpulls2 (J x y) (through2 f F x y) (that2 P c x y)) ->
  tdisc2 (pdeg P) n r0 r1 F J f = c.
Proof. exact tdisc_recon2. Qed.
Print Assumptions C118_faces.
Example C118_faces_ex :
  tdisc2 2 exN0 DiscExample.mid DiscExample.mid (tct_mapping exA exB exC) (tct_Jacobian_matrix exA exB exC) (fun _ _ => 1) = tc2.
Proof.
  apply (tdisc_recon2 exN0 P2 _ _ P2_basis exN0_ok P2_exact P2_exact mid_open mid_open); [reflexivity|]. intros x y _ _. apply tri_hat2.
Qed.

(* the incidence matrices give the cochains of the gradient, the rotated gradient,
   the rotation and the divergence of the reconstructed forms *)
Theorem C119_gradients : forall n P F J, basis_of n P -> jacobian2_of F J -> forall o M e f G c c1,
  length c = tnb0 (pdeg P) -> length c1 = tnb1 (pdeg P) -> mat_times (incidence0 o (pdeg P) M e) c c1 ->
  inside_square (fun x y => through2 f F x y = that0 P c x y) ->
  inside_square (fun x y => has_grad2 f (fst F x y) (snd F x y)
    (match o with Outer => (- snd (through2 (Disc2Spec.value2 G) F x y), fst (through2 (Disc2Spec.value2 G) F x y)) | Inner => through2 (Disc2Spec.value2 G) F x y end)) ->
  inside_square (fun x y => tpulls1 o (J x y) (through2 (Disc2Spec.value2 G) F x y) (fun d => that1 o P M e c1 d x y)).
Proof. exact trecon_d0. Qed.
Print Assumptions C119_gradients.
Example C119_gradients_ex : exists c1, mat_times (incidence0 Outer 2 sq_sides 1) tc0 c1 /\
  inside_square (fun x y => tpulls1 Outer (tct_Jacobian_matrix exA exB exC x y) (0, -3) (fun d => that1 Outer P2 sq_sides 1 c1 d x y)).
Proof.
  exists (tdisc1 Outer 2 exN0 Disc2Example.two Disc2Example.two sq_sides 1 (tct_mapping exA exB exC) (tct_Jacobian_matrix exA exB exC) exR2).
  assert (T : mat_times (incidence0 Outer 2 sq_sides 1) tc0 (tdisc1 Outer 2 exN0 Disc2Example.two Disc2Example.two sq_sides 1 (tct_mapping exA exB exC) (tct_Jacobian_matrix exA exB exC) exR2)).
  { rewrite <- C118_nodes_ex at 1. apply tri_d0; [reflexivity|reflexivity|exact ex2_rot|exact tri_along_f]. }
  split; [exact T|].
  apply (trecon_d0 exN0 P2 _ _ P2_basis (tct_jacobian exA exB exC) Outer sq_sides 1 exf2 exR2 tc0); try reflexivity; [exact T| |].
  - intros x y _ _. apply tri_hat0.
  - intros x y _ _. apply ex2_rot.
Qed.
Theorem C119_rotation_divergence : forall n P F J, basis_of n P -> jacobian2_of F J -> forall hxy, mixed J hxy -> forall o M e v D c1 c2,
  length c1 = tnb1 (pdeg P) -> length c2 = tnb2 (pdeg P) -> mat_times (incidence1 o (pdeg P) M e) c1 c2 ->
  inside_square (fun x y => tpulls1 o (J x y) (through2 (Disc2Spec.value2 v) F x y) (fun d => that1 o P M e c1 d x y)) ->
  inside_square (fun x y => has_grad2 (fst v) (fst F x y) (snd F x y) (fst (through2 D F x y)) /\
                            has_grad2 (snd v) (fst F x y) (snd F x y) (snd (through2 D F x y))) ->
  inside_square (fun x y => tpulls2 (J x y) (through2 (match o with Outer => div2 D | Inner => rot2 D end) F x y) (that2 P c2 x y)).
Proof. exact trecon_d1. Qed.
Print Assumptions C119_rotation_divergence.
Example C119_rotation_divergence_ex : jacobian2_of (tct_mapping exA exB exC) (tct_Jacobian_matrix exA exB exC) /\
  (exists h, mixed (tct_Jacobian_matrix exA exB exC) h) /\
  mat_times (incidence1 Inner 2 sq_sides 1) tc1 tc2 /\ mat_times (incidence1 Outer 2 sq_sides 1) tc1o tc2 /\
  inside_square (fun x y => tpulls1 Inner (tct_Jacobian_matrix exA exB exC x y) (through2 (Disc2Spec.value2 tv) (tct_mapping exA exB exC) x y)
                                    (fun d => that1 Inner P2 sq_sides 1 tc1 d x y)) /\
  inside_square (fun x y => tpulls1 Outer (tct_Jacobian_matrix exA exB exC x y) (through2 (Disc2Spec.value2 tw) (tct_mapping exA exB exC) x y)
                                    (fun d => that1 Outer P2 sq_sides 1 tc1o d x y)).
Proof.
  split; [apply tct_jacobian|]. split; [eexists; apply tct_mixed|]. split; [exact tri_times|]. split; [exact tri_times_o|].
  split; intros x y _ _; [apply tri_hat1|apply tri_hat1o].
Qed.

(* inner product matrices are the quadratures of the products of the
   reconstructed forms *)
Theorem C120_inner0 : forall r0 r1 J, rule_ok r0 -> rule_ok r1 -> forall P P' co cs,
  bilinear (tinner0 P P' r0 r1 J) co cs = tquad r0 r1 (fun x y => det2 (J x y) * (that0 P co x y * that0 P' cs x y)).
Proof. exact tinner0_ok. Qed.
Print Assumptions C120_inner0.
Example C120_inner0_ex : bilinear (tinner0 P2 P2 Disc2Example.two Disc2Example.two (tct_Jacobian_matrix exA exB exC)) tc0 tc0 = 315 / 32.
Proof.
  rewrite tinner0_ok by reflexivity. unfold tquad, rsum, Disc2Example.two. cbn [combine fst snd map fold_right]. rewrite !exJ_det, <- !tri_hat0. unfold through2, exf2.
  rewrite !tct_x. unfold exA, exB, exC. cbn [fst snd]. field.
Qed.
Theorem C120_inner1 : forall r0 r1 J, rule_ok r0 -> rule_ok r1 -> on_grid2 (fst r0) (fst r1) (fun x y => det2 (J x y) <> 0) ->
  forall same o P P' M e co cs vo vs, (same = true -> P = P') ->
  on_grid2 (fst r0) (fst r1) (fun x y => tpulls1 o (J x y) (vo x y) (fun d => that1 o P M e co d x y)) ->
  on_grid2 (fst r0) (fst r1) (fun x y => tpulls1 o (J x y) (vs x y) (fun d => that1 o P' M e cs d x y)) ->
  bilinear (tinner1 same o P P' M e r0 r1 J) co cs = tquad r0 r1 (fun x y => det2 (J x y) * dot2 (vo x y) (vs x y)).
Proof. exact tinner1_ok. Qed.
Print Assumptions C120_inner1.
Example C120_inner1_ex : bilinear (tinner1 true Inner P2 P2 sq_sides 1 DiscExample.mid DiscExample.mid (tct_Jacobian_matrix exA exB exC)) tc1 tc1 = 5 / 2.
Proof.
  assert (N : on_grid2 (fst DiscExample.mid) (fst DiscExample.mid) (fun x y => det2 (tct_Jacobian_matrix exA exB exC x y) <> 0)).
  { intros x y _ [<-|[]]. rewrite exJ_det. lra. }
  assert (H : on_grid2 (fst DiscExample.mid) (fst DiscExample.mid) (fun x y => tpulls1 Inner (tct_Jacobian_matrix exA exB exC x y)
     (through2 (Disc2Spec.value2 tv) (tct_mapping exA exB exC) x y) (fun d => that1 Inner P2 sq_sides 1 tc1 d x y))) by (intros x y _ _; apply tri_hat1).
  rewrite (tinner1_ok DiscExample.mid DiscExample.mid _ eq_refl eq_refl N true Inner P2 P2 sq_sides 1 tc1 tc1 _ _ (fun _ => eq_refl) H H).
  unfold tquad, rsum, DiscExample.mid. cbn [combine fst snd map fold_right]. rewrite exJ_det. unfold through2, Disc2Spec.value2, tv, dot2. rewrite tct_y.
  unfold exA, exB, exC. cbn [fst snd]. field.
Qed.
Theorem C120_inner2 : forall r0 r1 J, rule_ok r0 -> rule_ok r1 -> on_grid2 (fst r0) (fst r1) (fun x y => det2 (J x y) <> 0) ->
  forall P P' co cs vo vs,
  on_grid2 (fst r0) (fst r1) (fun x y => tpulls2 (J x y) (vo x y) (that2 P co x y)) ->
  on_grid2 (fst r0) (fst r1) (fun x y => tpulls2 (J x y) (vs x y) (that2 P' cs x y)) ->
  bilinear (tinner2 P P' r0 r1 J) co cs = tquad r0 r1 (fun x y => det2 (J x y) * (vo x y * vs x y)).
Proof. exact tinner2_ok. Qed.
Print Assumptions C120_inner2.
Example C120_inner2_ex : bilinear (tinner2 P2 P2 pos3 pos3 (tct_Jacobian_matrix exA exB exC)) tc2 tc2 = 2.
Proof.
  rewrite (tinner2_ok pos3 pos3 _ eq_refl eq_refl pos3_nonzero P2 P2 tc2 tc2 (fun _ _ => 1) (fun _ _ => 1)) by (intros x y _ _; apply tri_hat2).
  unfold tquad, rsum, pos3. cbn [combine fst snd map fold_right]. rewrite !exJ_det. field.
Qed.
(* mass matrices are symmetric and, for rules with positive weights and enough
   points, positive definite *)
Theorem C120_symmetric : forall P same o M e r0 r1 J,
  symmetric (tinner0 P P r0 r1 J) (tnb0 (pdeg P)) /\ symmetric (tinner1 same o P P M e r0 r1 J) (tnb1 (pdeg P)) /\
  symmetric (tinner2 P P r0 r1 J) (tnb2 (pdeg P)).
Proof. intros P same o M e r0 r1 J. exact (conj (tinner0_sym P r0 r1 J) (conj (tinner1_sym same o P M e r0 r1 J) (tinner2_sym P r0 r1 J))). Qed.
Print Assumptions C120_symmetric.
Example C120_symmetric_ex : tnb0 (pdeg P2) = 7%nat /\ tnb1 (pdeg P2) = 10%nat /\ tnb2 (pdeg P2) = 4%nat.
Proof. repeat split. Qed.
Theorem C120_positive : forall r0 r1, rule_ok r0 -> rule_ok r1 -> weights_pos r0 -> weights_pos r1 -> forall P, separates (fst r0) P -> separates (fst r1) P ->
  forall J, on_grid2 (fst r0) (fst r1) (fun x y => 0 < det2 (J x y)) -> forall same o M e,
  positive_definite (tinner0 P P r0 r1 J) (tnb0 (pdeg P)) /\ positive_definite (tinner1 same o P P M e r0 r1 J) (tnb1 (pdeg P)) /\
  positive_definite (tinner2 P P r0 r1 J) (tnb2 (pdeg P)).
Proof.
  intros r0 r1 H0 H1 W0 W1 P S0 S1 J D same o M e.
  exact (conj (tinner0_pos r0 r1 H0 H1 W0 W1 P S0 S1 J D) (conj (tinner1_pos r0 r1 H0 H1 W0 W1 P S0 S1 J D same o M e) (tinner2_pos r0 r1 H0 H1 W0 W1 P S0 S1 J D))).
Qed.
Print Assumptions C120_positive.
Example C120_positive_ex : rule_ok pos3 /\ weights_pos pos3 /\ separates (fst pos3) P2 /\
  on_grid2 (fst pos3) (fst pos3) (fun x y => 0 < det2 (tct_Jacobian_matrix exA exB exC x y)).
Proof. exact (conj (proj1 pos3_ok) (conj (proj2 pos3_ok) (conj pos3_separates pos3_det))). Qed.
(* the energies are quadratures of powers of the reconstructed form; the L2 energy
   is the quadratic form of the mass matrix *)
Theorem C120_energies : forall r0 r1 J, rule_ok r0 -> rule_ok r1 -> on_grid2 (fst r0) (fst r1) (fun x y => det2 (J x y) <> 0) ->
  forall n P o M e c0 c1 c2 v w,
  on_grid2 (fst r0) (fst r1) (fun x y => tpulls1 o (J x y) (v x y) (fun d => that1 o P M e c1 d x y)) ->
  on_grid2 (fst r0) (fst r1) (fun x y => tpulls2 (J x y) (w x y) (that2 P c2 x y)) ->
  tenergy_scalar n r0 r1 J (trecon0 P (fst r0) (fst r1) c0) = tquad r0 r1 (fun x y => det2 (J x y) * that0 P c0 x y ^ n) /\
  tenergy_vector n r0 r1 J (trecon1 o P M e (fst r0) (fst r1) J c1) = tquad r0 r1 (fun x y => det2 (J x y) * (fst (v x y) ^ n + snd (v x y) ^ n)) /\
  tenergy_scalar n r0 r1 J (trecon2 P (fst r0) (fst r1) J c2) = tquad r0 r1 (fun x y => det2 (J x y) * w x y ^ n).
Proof.
  intros r0 r1 J H0 H1 N n P o M e c0 c1 c2 v w V W.
  exact (conj (tenergy0 r0 r1 J H0 H1 n P c0) (conj (tenergy1 r0 r1 J H0 H1 N n o P M e c1 v V) (tenergy2 r0 r1 J H0 H1 N n P c2 w W))).
Qed.
Print Assumptions C120_energies.
Example C120_energies_ex : tenergy_scalar 3 pos3 pos3 (tct_Jacobian_matrix exA exB exC) (trecon2 P2 (fst pos3) (fst pos3) (tct_Jacobian_matrix exA exB exC) tc2) = 2.
Proof.
  rewrite (tenergy2 pos3 pos3 _ eq_refl eq_refl pos3_nonzero 3 P2 tc2 (fun _ _ => 1)) by (intros x y _ _; apply tri_hat2).
  unfold tquad, rsum, pos3. cbn [combine fst snd map fold_right]. rewrite !exJ_det. field.
Qed.
Theorem C120_L2 : forall r0 r1 J, rule_ok r0 -> rule_ok r1 -> on_grid2 (fst r0) (fst r1) (fun x y => det2 (J x y) <> 0) ->
  forall P same o M e c,
  tenergy_scalar 2 r0 r1 J (trecon0 P (fst r0) (fst r1) c) = bilinear (tinner0 P P r0 r1 J) c c /\
  tenergy_vector 2 r0 r1 J (trecon1 o P M e (fst r0) (fst r1) J c) = bilinear (tinner1 same o P P M e r0 r1 J) c c /\
  tenergy_scalar 2 r0 r1 J (trecon2 P (fst r0) (fst r1) J c) = bilinear (tinner2 P P r0 r1 J) c c.
Proof.
  intros r0 r1 J H0 H1 N P same o M e c.
  exact (conj (tenergy0_mass r0 r1 J H0 H1 P c) (conj (tenergy1_mass r0 r1 J H0 H1 N same o P M e c) (tenergy2_mass r0 r1 J H0 H1 N P c))).
Qed.
Print Assumptions C120_L2.
Example C120_L2_ex : tenergy_scalar 2 Disc2Example.two Disc2Example.two (tct_Jacobian_matrix exA exB exC) (trecon0 P2 (fst Disc2Example.two) (fst Disc2Example.two) tc0) = 315 / 32.
Proof. rewrite tenergy0_mass by reflexivity. exact C120_inner0_ex. Qed.

(* across a common side of two cells reconstructed 0-forms are continuous and
   1-forms have continuous tangential (inner) or normal (outer) components *)
Theorem C121_values : forall n P, basis_of n P -> sym_nodes (pdeg P) n -> forall conds pts cells0 cells M,
  make_mesh conds pts cells0 = Some (cells, M) -> no_overlap pts cells -> (1 <= pdeg P)%nat -> mirrored P ->
  forall c m j q s, (c < length cells)%nat -> (m < 3)%nat -> side_at M c m = SI j s q ->
  forall A N X t u, numbering0 (pdeg P) cells M = Some (A, N) ->
  image (tct_mapping (corner_pt pts cells c 0) (corner_pt pts cells c 1) (corner_pt pts cells c 2)) (fst (side_pt m t)) (snd (side_pt m t)) =
  image (tct_mapping (corner_pt pts cells j 0) (corner_pt pts cells j 1) (corner_pt pts cells j 2)) (fst (side_pt q u)) (snd (side_pt q u)) ->
  that0 P (local0 (pdeg P) A X c) (fst (side_pt m t)) (snd (side_pt m t)) = that0 P (local0 (pdeg P) A X j) (fst (side_pt q u)) (snd (side_pt q u)).
Proof. exact conform0. Qed.
Print Assumptions C121_values.
Example C121_values_ex : exists A N, numbering0 2 sq_cells sq_sides = Some (A, N) /\
  forall X t, that0 P2 (local0 2 A X 0) (-1) t = that0 P2 (local0 2 A X 1) (-1) (- t).
Proof.
  destruct (numbering0 2 sq_cells sq_sides) as [[A N]|] eqn:E; [|vm_compute in E; discriminate].
  exists A, N. split; [reflexivity|]. intros X t.
  apply (conform0 exN0 P2 P2_basis exN0_sym sq_conds sq_pts sq_given sq_cells sq_sides sq_mesh sq_apart (le_S 1 1 (le_n 1)) P2_mirrored
           0 1 1 1 false (le_S 1 1 (le_n 1)) (le_S 2 2 (le_n 2)) eq_refl A N X t (- t) E).
  unfold image, side_pt. rewrite !tct_x, !tct_y. cbn. f_equal; field.
Qed.
Theorem C121_traces : forall n P, basis_of n P -> sym_nodes (pdeg P) n -> forall conds pts cells0 cells M,
  make_mesh conds pts cells0 = Some (cells, M) -> no_overlap pts cells -> (1 <= pdeg P)%nat -> mirrored P ->
  forall c m j q s, (c < length cells)%nat -> (m < 3)%nat -> side_at M c m = SI j s q ->
  forall o A N X t u w w', numbering1 o (pdeg P) M = Some (A, N) ->
  image (tct_mapping (corner_pt pts cells c 0) (corner_pt pts cells c 1) (corner_pt pts cells c 2)) (fst (side_pt m t)) (snd (side_pt m t)) =
  image (tct_mapping (corner_pt pts cells j 0) (corner_pt pts cells j 1) (corner_pt pts cells j 2)) (fst (side_pt q u)) (snd (side_pt q u)) ->
  tpulls1 o (tct_Jacobian_matrix (corner_pt pts cells c 0) (corner_pt pts cells c 1) (corner_pt pts cells c 2) (fst (side_pt m t)) (snd (side_pt m t))) w
    (fun d => that1 o P M c (local1 o (pdeg P) A X c) d (fst (side_pt m t)) (snd (side_pt m t))) ->
  tpulls1 o (tct_Jacobian_matrix (corner_pt pts cells j 0) (corner_pt pts cells j 1) (corner_pt pts cells j 2) (fst (side_pt q u)) (snd (side_pt q u))) w'
    (fun d => that1 o P M j (local1 o (pdeg P) A X j) d (fst (side_pt q u)) (snd (side_pt q u))) ->
  trace o w (side_vec pts cells c m) = trace o w' (side_vec pts cells c m).
Proof. exact conform1. Qed.
Print Assumptions C121_traces.
Example C121_traces_ex : forall o, exists A N, numbering1 o 2 sq_sides = Some (A, N) /\
  forall t, image (tct_mapping (corner_pt sq_pts sq_cells 0 0) (corner_pt sq_pts sq_cells 0 1) (corner_pt sq_pts sq_cells 0 2)) (-1) t =
            image (tct_mapping (corner_pt sq_pts sq_cells 1 0) (corner_pt sq_pts sq_cells 1 1) (corner_pt sq_pts sq_cells 1 2)) (-1) (- t).
Proof.
  intros o. destruct (numbering1 o 2 sq_sides) as [[A N]|] eqn:E; [|destruct o; vm_compute in E; discriminate].
  exists A, N. split; [reflexivity|]. intros t. unfold image. rewrite !tct_x, !tct_y. cbn. f_equal; field.
Qed.
