(* Cross products on the curved element of DiscExample and on a flat one. *)
From Coq Require Import Reals List Lia Lra Arith ZArith.
From Verif Require Import TfiModel TfiSpec CtModel CtSpec RingSum SpaceModel SpaceSpec SpaceProofs3 DiscModel DiscSpec DiscProofs DiscProofs2 DiscProofs3 DiscExample.
From Verif Require Import ReconModel ReconSpec ReconProofs ReconProofs2 ReconProofs3 ReconProofs4 ReconProofs5 ReconExample.
From Verif Require Import CrossModel CrossSpec CrossProofs CrossProofs2.
Import ListNotations.
Open Scope R_scope.

(* ---------- (Z, 0, 0), (0, 1, 0) and (0, 0, 1) on the curved element ---------- *)
Definition xsp : Space3 := mkSpace3 P1 P2 P2.
Definition xg : Grid := mkGrid [-1; 1] [-1; 0; 1] [-1; 0; 1] mid mid mid.
Definition xw (c : coord) (x y z : R) : R := match c with cX => z | _ => 0 end.
Definition xu (c : coord) (x y z : R) : R := match c with cY => 1 | _ => 0 end.
Definition xe (c : coord) (x y z : R) : R := match c with cZ => 1 | _ => 0 end.
Definition xcells (k : kind) (v : coord -> R -> R -> R -> R) : list R :=
  match k with
  | k1 => map (int1 xg exF exJ v) (cells [1; 2; 2]%nat edges3)
  | k2 => map (int2 xg exF exJ v) (cells [1; 2; 2]%nat faces3)
  end.
Definition on_el (v : coord -> R -> R -> R -> R) : R -> R -> R -> vec := through (value v) exF.
Ltac open_x := unfold xcells, hat1, hat2, expand, int1, int2, cell_quad, pull1, pull2, through, value, exF, exJ, along, normal, col, dot, csum, cross, ent, mrow, rsum; cbn.
Lemma xform_w k m : form_at k xsp m exJ (xcells k xw) (on_el xw).
Proof. destruct k; (split; [reflexivity|]; intros x y z _ _ _ []; unfold on_el, xw; open_x; field). Qed.
Lemma xform_u k m : form_at k xsp m exJ (xcells k xu) (on_el xu).
Proof. destruct k; (split; [reflexivity|]; intros x y z _ _ _ []; unfold on_el, xu; open_x; field). Qed.
Lemma xform_e k m : form_at k xsp m exJ (xcells k xe) (on_el xe).
Proof. destruct k; (split; [reflexivity|]; intros x y z _ _ _ []; unfold on_el, xe; open_x; field). Qed.
(* one point along x, two along y and z *)
Definition xq (g : R) : Rule3 := mkRule3 ([0], [2]) ([- g; g], [1; 1]) ([- g; g], [1; 1]).
Lemma xq_ok g : rules_ok (xq g).
Proof. repeat split. Qed.
Lemma xq_inside g : 0 < g < 1 -> inside_grid (qmesh (xq g)).
Proof. intros G x y z X Y Z. cbn in X, Y, Z. intuition lra. Qed.
Lemma xq_det g : 0 < g < 1 -> nonzero_det (xq g) exJ.
Proof. intros G x y z X Y Z. cbn in Y. unfold det3, exJ. intuition lra. Qed.
Lemma x_triple g : triple (xq g) exJ (on_el xw) (on_el xu) (on_el xe) = 0.
Proof. unfold triple, quad3, xq, rsum, on_el, through, value, xw, xu, xe, exF, exJ, det3, cross, dot, csum; cbn. ring. Qed.
Lemma x_code g kw ku ke : 0 < g < 1 -> tri (cross_product kw ku ke xsp xsp xsp (xq g) exJ false) (xcells kw xw) (xcells ku xu) (xcells ke xe) = 8 * g * g.
Proof.
  intros G. unfold cross_product.
  rewrite (tri_cp3 kw ku ke xsp xsp xsp (xq g) exJ false _ _ _ (on_el xw) (on_el xu) (on_el xe) (xq_det g G) ltac:(discriminate) (xform_w kw _) (xform_u ku _) (xform_e ke _)).
  unfold sixth, detJC, cdot, pointsC, points, mesh3, qw, weights3, xq, qmesh, rsum, on_el, through, value, xw, xu, xe, exF, exJ, ct_Jacobian, cross, dot, csum; cbn. ring.
Qed.
Theorem order_refuted kw ku ke g : 0 < g < 1 -> exists F J s cw cu ce vw vu ve,
  jacobian_of F J /\ nonzero_det (xq g) J /\
  form_at kw s (qmesh (xq g)) J cw vw /\ form_at ku s (qmesh (xq g)) J cu vu /\ form_at ke s (qmesh (xq g)) J ce ve /\
  tri (cross_product kw ku ke s s s (xq g) J false) cw cu ce <> triple (xq g) J vw vu ve.
Proof.
  intros G. exists exF, exJ, xsp, (xcells kw xw), (xcells ku xu), (xcells ke xe), (on_el xw), (on_el xu), (on_el xe).
  split; [exact ex_jacobian|]. split; [apply xq_det; exact G|]. split; [apply xform_w|]. split; [apply xform_u|]. split; [apply xform_e|].
  rewrite x_triple, (x_code g kw ku ke G). nra.
Qed.

(* ---------- '2-M-0' of cross_product_1__ip_1.py, the unit element ---------- *)
Definition usp : Space3 := mkSpace3 P1 P1 P1.
Definition uJ (x y z : R) : mat3 := ((1, 0, 0), (0, 1, 0), (0, 0, 1)).
Definition uF (c : coord) (x y z : R) : R := TfiModel.get (x, y, z) c.
Definition uq : Rule3 := mkRule3 ([0], [2]) ([0], [2]) ([0], [2]).
Definition uc (d : coord) : list R :=
  match d with cX => [1; 1; 1; 1; 0; 0; 0; 0; 0; 0; 0; 0] | cY => [0; 0; 0; 0; 1; 1; 1; 1; 0; 0; 0; 0] | cZ => [0; 0; 0; 0; 0; 0; 0; 0; 1; 1; 1; 1] end.
Definition uv (d : coord) (x y z : R) : vec := match d with cX => (1 / 2, 0, 0) | cY => (0, 1 / 2, 0) | cZ => (0, 0, 1 / 2) end.
Lemma u_jacobian : jacobian_of uF uJ.
Proof.
  intros c x y z. destruct c; cbn; repeat split;
    first [apply derivable_pt_lim_id|apply derivable_pt_lim_const].
Qed.
Lemma u_form d m : form_at k1 usp m uJ (uc d) (uv d).
Proof. destruct d; (split; [reflexivity|]; intros x y z _ _ _ []; unfold uc, uv, uJ, hat1, expand, along, col, dot, csum, ent, mrow, rsum; cbn; field). Qed.
Lemma u_nonzero : nonzero_det uq uJ.
Proof. intros x y z _ _ _. unfold det3, uJ. lra. Qed.
Lemma u_const : constant_det uq uJ.
Proof. exists 1. intros x y z _ _ _. unfold det3, uJ. ring. Qed.
Lemma u_diag : orth_ok uq uJ true.
Proof. intros _ x y z _ _ _ [] [] H; try (exfalso; apply H; reflexivity); reflexivity. Qed.
Lemma tri_zero M n b c : tri M (repeat 0 n) b c = 0.
Proof.
  unfold tri. apply rsum_zero'. intros [Mi a] H. apply in_combine_r in H. apply repeat_spec in H. subst a. cbn [fst snd].
  apply rsum_zero'. intros [Mij x] _. apply rsum_zero'. intros [m y] _. cbn [fst snd]. ring.
Qed.
Theorem two_M_0_refuted : exists F J s q cw cu ce vw vu ve T,
  jacobian_of F J /\ rules_ok q /\ nonzero_det q J /\ orth_ok q J true /\ constant_det q J /\
  form_at k1 s (qmesh q) J cw vw /\ form_at k1 s (qmesh q) J cu vu /\ form_at k1 s (qmesh q) J ce ve /\
  out_2M0_11 (cross_product k1 k1 k1 s s s q J true) cu (nbasis k1 s) = Some T /\ bilinear T ce cw <> triple q J vw vu ve.
Proof.
  destruct (out_2M0_11_is (cross_product k1 k1 k1 usp usp usp uq uJ true) 12 12 12 (uc cX) (uc cY) (uc cZ)) as (T & HT & BT); try reflexivity; [apply cp3_shape|].
  exists uF, uJ, usp, uq, (uc cX), (uc cY), (uc cZ), (uv cX), (uv cY), (uv cZ), T.
  split; [exact u_jacobian|]. split; [repeat split|]. split; [exact u_nonzero|]. split; [exact u_diag|]. split; [exact u_const|].
  split; [apply u_form|]. split; [apply u_form|]. split; [apply u_form|]. split; [exact HT|].
  rewrite BT. replace (map2 Rmult (uc cY) (uc cX)) with (repeat 0 12) by (cbn; rewrite !Rmult_0_l, !Rmult_0_r; reflexivity).
  rewrite tri_zero. unfold triple, quad3, uq, rsum, uv, uJ, det3, cross, dot, csum; cbn. lra.
Qed.

(* ---------- the curl of a cross product, u = (-X, -Y, 0), B = (0, 0, 1) ---------- *)
Definition P0 : Poly1 := mkPoly1 0 (fun _ _ => 1) (fun _ _ => 0).
Definition nsp : Space3 := mkSpace3 P1 P1 P0.
Definition ng : Grid := mkGrid [-1; 1] [-1; 1] [0] mid mid mid.
Lemma n_basis : basis3_of ng nsp.
Proof.
  assert (B1 : basis_of [-1; 1] P1) by apply ex_basis.
  split; [exact B1|]. split; [exact B1|]. split; [reflexivity|]. split.
  - intros [|i] [|j] Hi Hj; cbn in Hi, Hj; try lia. reflexivity.
  - intros u x. cbn. apply (quad_lim _ (u 0%nat) 0 0); [intros; ring|ring].
Qed.
(* the field (-Y, X, 0), its derivatives and its cochain on nsp *)
Definition nv (c : coord) (x y z : R) : R := match c with cX => - y | cY => x | cZ => 0 end.
Definition nD (i j : coord) (x y z : R) : R := match i, j with cX, cY => -1 | cY, cX => 1 | _, _ => 0 end.
Definition nc : list R := [4; -4; -4; 4].
Lemma n_deriv : deriv_of nv nD.
Proof.
  intros [] x y z; cbn [nv nD]; [|apply (grad_coord cX)|apply grad_const].
  intros k t d E0 E1 E2 Hd. specialize (Hd cY). unfold dot, csum. cbn [TfiModel.get].
  replace (-(1) * _) with (- TfiModel.get d cY) by (destruct d as [[? ?] ?]; cbn; ring).
  replace (_ + _ + _) with (- TfiModel.get d cY) by (destruct d as [[? ?] ?]; cbn; ring). apply (derivable_pt_lim_opp (fun s => k cY s)). exact Hd.
Qed.
Lemma n_hat : forall x y z, pulls1 (exJ2 x y z) (through (value nv) exF2 x y z) (fun d => hat1 nsp nc d x y z).
Proof. intros x y z []; unfold nc, nv, exJ2, exF2, through, value, hat1, expand, along, col, dot, csum, ent, mrow, rsum; cbn; field. Qed.
Definition nu (c : coord) (x y z : R) : R := match c with cX => - x | cY => - y | cZ => 0 end.
Definition nq : Rule3 := mkRule3 ([- (1 / 2); 1 / 2], [1; 1]) ([- (1 / 2); 1 / 2], [1; 1]) ([0], [2]).
Definition n2 (v : coord -> R -> R -> R -> R) : list R := map (int2 (mkGrid [-1; 1] [-1; 1] [-1; 1] mid mid mid) exF2 exJ2 v) (cells [1; 1; 1]%nat faces3).
Lemma n_form_u m : form_at k2 usp m exJ2 (n2 nu) (through (value nu) exF2).
Proof. split; [reflexivity|]. intros x y z _ _ _ []; unfold n2, nu, exF2, exJ2; open_x; field. Qed.
Lemma n_form_B m : form_at k2 usp m exJ2 (n2 xe) (through (value xe) exF2).
Proof. split; [reflexivity|]. intros x y z _ _ _ []; unfold n2, xe, exF2, exJ2; open_x; field. Qed.
(* the mass matrix of the 1-forms and its inverse *)
Definition nmass : list (list R) := [[5 / 16; 3 / 16; 0; 0]; [3 / 16; 5 / 16; 0; 0]; [0; 0; 5 / 4; 3 / 4]; [0; 0; 3 / 4; 5 / 4]].
Definition ninv : list (list R) := [[5; -3; 0; 0]; [-3; 5; 0; 0]; [0; 0; 5 / 4; - (3 / 4)]; [0; 0; - (3 / 4); 5 / 4]].
Lemma n_mass : inner1 true true nsp nsp nq exJ2 = nmass.
Proof.
  unfold inner1, inner_blocks, basis1, kron, node_basis, edge_basis, nsp, nq, exJ2, P1, P0, gram, block0, fac1, ct_inverse_Jacobian_matrix, ct_inverse_metric_matrix, ct_Jacobian, ment, qw, weights3, points, mesh3, bmat3, hstack3, lsum, nmass.
  cbn. repeat (apply f_equal2); try reflexivity; field.
Qed.
Lemma n_inverse : inverse_of (inner1 true true nsp nsp nq exJ2) ninv (nbasis k1 nsp).
Proof.
  rewrite n_mass. change (nbasis k1 nsp) with 4%nat. split; [|split; [|split]].
  - split; [reflexivity|]. intros row H. cbn in H. intuition (subst; reflexivity).
  - split; [reflexivity|]. intros row H. cbn in H. intuition (subst; reflexivity).
  - intros [|a [|b [|c [|d [|e l]]]]] L; try discriminate. unfold times, nmass, ninv, rsum. cbn. repeat (apply f_equal2); try reflexivity; field.
  - intros [|a [|b [|c [|d [|e l]]]]] L; try discriminate. unfold times, nmass, ninv, rsum. cbn. repeat (apply f_equal2); try reflexivity; field.
Qed.
Lemma n_inside : inside_grid (qmesh nq).
Proof. intros x y z X Y Z. cbn in X, Y, Z. intuition lra. Qed.
Lemma n_nonzero : nonzero_det nq exJ2.
Proof. intros x y z _ _ _. unfold det3, exJ2. lra. Qed.
Lemma n_const : constant_det nq exJ2.
Proof. exists 2. intros x y z _ _ _. unfold det3, exJ2. ring. Qed.
Lemma n_diag : orth_ok nq exJ2 true.
Proof. intros _ x y z _ _ _ [] [] H; try (exfalso; apply H; reflexivity); reflexivity. Qed.
Lemma n_value : exists E, E21 (degrees nsp) = Some E /\
  tri (inner_curl usp usp usp nsp nq nq exJ2 ninv E) (n2 nu) (n2 xe) (n2 xe) = 32.
Proof.
  destruct (E21_acts RRing 1 1 0) as (E & HE & _). exists E. split; [exact HE|].
  rewrite (inner_curl_ok ng nsp n_basis exF2 exJ2 (fun _ _ _ _ _ _ => 0) ex_jacobian2 ex_second2 nv nD E nc HE eq_refl
    (fun x y z _ _ _ i => n_deriv i _ _ _) (fun x y z _ _ _ => n_hat x y z)
    usp usp usp nq nq nq ninv (n2 nu) (n2 xe) (n2 xe) (through (value nu) exF2) (through (value xe) exF2) (through (value xe) exF2)).
  - unfold quad3, nq, rsum, through, value, curl_field, curl_of, xe, nD, exF2, exJ2, det3, dot, csum; cbn. ring.
  - repeat split.
  - repeat split.
  - exact n_inside.
  - exact n_inside.
  - exact n_nonzero.
  - exact n_nonzero.
  - exact n_diag.
  - exact n_diag.
  - exact n_const.
  - apply n_form_u.
  - apply n_form_B.
  - apply n_form_B.
  - intros x y z _ _ _. unfold through, value, nv, nu, xe, exF2, cross. cbn. repeat (apply f_equal2); ring.
  - exact n_inverse.
  - reflexivity.
Qed.
