(* Discretization on triangles and the incidence matrices. *)
From Coq Require Import Reals List Lra Lia Arith ZArith Bool.
From Verif Require Import CtModel CtSpec RingSum SpaceModel SpaceSpec DiscModel DiscSpec DiscProofs DiscProofs2 DiscProofs3 Disc2Model Disc2Spec Disc2Proofs.
From Verif Require Import TriModel TriSpec TriProofs TriProofs6 TdiscModel TdiscSpec TdiscProofs TdiscProofs2.
Import ListNotations.
Open Scope R_scope.

Lemma zmul_IZR z x : zmul (K := RRing) z x = IZR z * x.
Proof.
  unfold zmul. assert (P : forall n, nmul (K := RRing) n x = INR n * x).
  { induction n as [|n IH]; [cbn; ring|]. rewrite S_INR. cbn [nmul]. rewrite IH. cbn. ring. }
  destruct z as [|q|q]; [cbn; ring| |].
  - change (nmul (K := RRing) (Pos.to_nat q) x = IZR (Z.pos q) * x). rewrite P, INR_IPR. reflexivity.
  - change (- nmul (K := RRing) (Pos.to_nat q) x = IZR (Z.neg q) * x). rewrite P, INR_IPR. change (IZR (Z.neg q)) with (- IPR q). ring.
Qed.
Definition rs (n : nat) (f : nat -> R) : R := rsum (seq 0 n) f.
Lemma rs_ext n f g : (forall k, (k < n)%nat -> f k = g k) -> rs n f = rs n g.
Proof. intros H. apply rsum_ext. intros k Hk. apply in_seq in Hk. apply H. lia. Qed.
Lemma rs_pick n x (f : nat -> R) : (x < n)%nat -> rs n (fun k => IZR (dirac (Nat.eqb k x)) * f k) = f x.
Proof.
  unfold rs. intros H.
  assert (G : forall m s, rsum (seq s m) (fun k => IZR (dirac (Nat.eqb k x)) * f k) = if andb (Nat.leb s x) (Nat.ltb x (s + m)) then f x else 0).
  { induction m as [|m IH]; intros s; cbn [seq rsum fold_right].
    - destruct (Nat.leb_spec s x), (Nat.ltb_spec x (s + 0)); cbn [andb]; try lia; reflexivity.
    - fold (rsum (seq (S s) m) (fun k => IZR (dirac (Nat.eqb k x)) * f k)). rewrite IH. unfold dirac.
      destruct (Nat.eqb_spec s x) as [->|N].
      + destruct (Nat.leb_spec x x), (Nat.leb_spec (S x) x), (Nat.ltb_spec x (x + S m)); cbn [andb]; try lia; ring.
      + destruct (Nat.leb_spec s x), (Nat.leb_spec (S s) x), (Nat.ltb_spec x (s + S m)), (Nat.ltb_spec x (S s + m)); cbn [andb]; try lia; ring. }
  rewrite G. destruct (Nat.leb_spec 0 x), (Nat.ltb_spec x (0 + n)); cbn [andb]; try lia; reflexivity.
Qed.
Lemma rs_mul n c f : rs n (fun k => c * f k) = c * rs n f.
Proof. unfold rs. rewrite Rmult_comm, rsum_scal. apply rsum_ext. intros. ring. Qed.
Lemma apply_rs n E w r : apply_mat (K := RRing) n E w r = rs n (fun k => IZR (E r k) * w k).
Proof. unfold apply_mat, rs, rsum, bsum. induction (seq 0 n) as [|k l IH]; [reflexivity|]. cbn [fold_right]. rewrite IH, zmul_IZR. reflexivity. Qed.
Lemma E0_row_R o p e (f : nat -> R) : edge_ok p e ->
  rs (tnb0 p) (fun k => IZR (tE0 o p (Z.to_nat (dofe o p e)) k) * f k) =
  IZR (sgn0 o e) * (f (Z.to_nat (dofn p (stop e))) - f (Z.to_nat (dofn p (start e)))).
Proof.
  intros He. destruct (start_ok p e He) as (Hs & Ht & _). destruct (numbers_node p) as (RN & IN & SN).
  transitivity (rs (tnb0 p) (fun k => IZR (sgn0 o e) * (IZR (dirac (Nat.eqb k (Z.to_nat (dofn p (stop e))))) * f k
                                          - IZR (dirac (Nat.eqb k (Z.to_nat (dofn p (start e))))) * f k))).
  - apply rs_ext. intros k Hk. destruct (SN k Hk) as (n & Hn & E).
    replace k with (Z.to_nat (dofn p n)) by lia. rewrite (E0_ok o p e n He Hn). unfold d_node. fold (sgn0 o e).
    rewrite (dirac_dof _ _ _ tnode_eqb n (stop e) (numbers_node p) tnode_eqb_eq Hn Ht).
    rewrite (dirac_dof _ _ _ tnode_eqb n (start e) (numbers_node p) tnode_eqb_eq Hn Hs). rewrite mult_IZR, minus_IZR. ring.
  - rewrite rs_mul. f_equal. unfold rs. rewrite rsum_minus. fold (rs (tnb0 p) (fun k => IZR (dirac (Nat.eqb k (Z.to_nat (dofn p (stop e))))) * f k)).
    fold (rs (tnb0 p) (fun k => IZR (dirac (Nat.eqb k (Z.to_nat (dofn p (start e))))) * f k)).
    pose proof (RN _ Hs). pose proof (RN _ Ht). rewrite !rs_pick by lia. reflexivity.
Qed.
Definition at_dxR (o : orient) (p i j : nat) (f : nat -> R) : R := if Nat.eqb j 0 then 0 else f (Z.to_nat (dofe o p (Dx i j))).
Lemma E1_row_R o p i j (f : nat -> R) : (i < p)%nat -> (j < p)%nat ->
  rs (tnb1 p) (fun k => IZR (tE1 o p (Z.to_nat (tln2 p i j)) k) * f k) =
  IZR (sgn1 o) * (f (Z.to_nat (dofe o p (Dx i (j + 1)))) - at_dxR o p i j f)
   + (f (Z.to_nat (dofe o p (Dy (i + 1) j))) - f (Z.to_nat (dofe o p (Dy i j)))).
Proof.
  intros Hi Hj. destruct (numbers_edge o p) as (RE & IE & SE).
  assert (K1 : edge_ok p (Dx i (j + 1))) by (cbn; lia).
  assert (K2 : edge_ok p (Dy (i + 1) j)) by (cbn; lia). assert (K3 : edge_ok p (Dy i j)) by (cbn; lia).
  transitivity (rs (tnb1 p) (fun k =>
     (IZR (sgn1 o) * (IZR (dirac (Nat.eqb k (Z.to_nat (dofe o p (Dx i (j + 1)))))) * f k
               - (if Nat.eqb j 0 then 0 else IZR (dirac (Nat.eqb k (Z.to_nat (dofe o p (Dx i j))))) * f k))
      + (IZR (dirac (Nat.eqb k (Z.to_nat (dofe o p (Dy (i + 1) j))))) * f k - IZR (dirac (Nat.eqb k (Z.to_nat (dofe o p (Dy i j))))) * f k)))).
  - apply rs_ext. intros k Hk. destruct (SE k Hk) as (e & He & E).
    replace k with (Z.to_nat (dofe o p e)) by lia. rewrite (E1_ok o p i j e Hi Hj He). unfold d_edge. fold (sgn1 o).
    rewrite (dirac_dof _ _ _ tedge_eqb e (Dx i (j + 1)) (numbers_edge o p) tedge_eqb_eq He K1).
    rewrite (dirac_dof _ _ _ tedge_eqb e (Dy (i + 1) j) (numbers_edge o p) tedge_eqb_eq He K2).
    rewrite (dirac_dof _ _ _ tedge_eqb e (Dy i j) (numbers_edge o p) tedge_eqb_eq He K3).
    rewrite plus_IZR, mult_IZR, !minus_IZR.
    destruct (Nat.eqb j 0) eqn:B.
    + apply Nat.eqb_eq in B. subst j. destruct (dirac_edge e (Dx i 0)) as [[-> _]|[_ ->]]; [cbn in He; lia|]. ring.
    + apply Nat.eqb_neq in B.
      rewrite (dirac_dof _ _ _ tedge_eqb e (Dx i j) (numbers_edge o p) tedge_eqb_eq He ltac:(cbn; lia)). ring.
  - pose proof (RE _ K1). pose proof (RE _ K2). pose proof (RE _ K3).
    assert (P : forall x, (x < tnb1 p)%nat -> rsum (seq 0 (tnb1 p)) (fun k => IZR (dirac (Nat.eqb k x)) * f k) = f x) by (intros x Hx; apply rs_pick; exact Hx).
    unfold rs. rewrite rsum_plus. change (rsum (seq 0 (tnb1 p))) with (rs (tnb1 p)). rewrite rs_mul. unfold rs. rewrite !rsum_minus.
    rewrite !P by lia. f_equal. f_equal. f_equal. unfold at_dxR. destruct (Nat.eqb j 0) eqn:B; [apply rsum_zero|].
    apply Nat.eqb_neq in B. assert (K4 : edge_ok p (Dx i j)) by (cbn; lia). pose proof (RE _ K4). apply P. lia.
Qed.
Section Tri.
Variables (p : nat) (n : list R) (r0 r1 s0 s1 : list R * list R) (a b c : point).
Hypotheses (Hn : length n = S p) (H0 : nth 0 n 0 = -1).
Notation gr := (mkGrid2 n n r0 r1).
Notation gs := (mkGrid2 n n s0 s1).
Notation F := (tct_mapping a b c).
Notation J := (tct_Jacobian_matrix a b c).
Lemma at_node (f : R -> R -> R) i j : through2 f F (fst (node_pos n (node_at i j))) (snd (node_pos n (node_at i j))) = through2 f F (nth i n 0) (nth j n 0).
Proof.
  destruct j as [|j]; [|reflexivity]. cbn [node_at node_pos fst snd]. unfold through2. rewrite !tct_x, !tct_y, H0. f_equal; field.
Qed.
Lemma quad2_pt g h i j : quad2 g h [(false, i); (false, j)] = h (nth i (hx g) 0) (nth j (hy g) 0).
Proof. rewrite quad2_Q, !Q_pt. reflexivity. Qed.
(* the difference of the values at the ends of an edge is the integral of the derivative along it *)
Lemma ends_of_edge (f : R -> R -> R) (h : bool -> R -> R -> R) e : edge_ok p e ->
  (forall x y, derivable_pt_lim (fun s => through2 f F s y) x (h false x y) /\ derivable_pt_lim (fun s => through2 f F x s) y (h true x y)) ->
  (forall d, integrates_along2 gr d (through2 f F)) ->
  quad2 gr (h (along2 (edge_cell e))) (edge_cell e) =
  through2 f F (fst (node_pos n (stop e))) (snd (node_pos n (stop e))) - through2 f F (fst (node_pos n (start e))) (snd (node_pos n (start e))).
Proof.
  intros He D X. destruct e as [i j|i j]; cbn [edge_ok] in He; cbn [edge_cell along2 map fst stop start]; rewrite !at_node, ?Nat.add_1_r.
  - rewrite (stokes2_x gr (through2 f F)); [|cbn [hx]; lia|intros; apply D|apply X]. rewrite !quad2_pt. reflexivity.
  - rewrite (stokes2_y gr (through2 f F)); [|cbn [hy]; lia|intros; apply D|apply X]. rewrite !quad2_pt. reflexivity.
Qed.
Lemma tri_d0 o M k f G :
  (forall x y, has_grad2 f x y (match o with Inner => value2 G x y | Outer => (- snd (value2 G x y), fst (value2 G x y)) end)) ->
  (forall d, integrates_along2 gr d (through2 f F)) ->
  mat_times (incidence0 o p M k) (tdisc0 p n F f) (tdisc1 o p n r0 r1 M k F J G).
Proof.
  intros HG X r Hr. rewrite (tdisc1_len p n r0 r1 Hn) in Hr. destruct (numbers_edge o p) as (_ & _ & SE).
  destruct (SE r Hr) as (e & He & E). fold (dofe o p e) in E. replace r with (Z.to_nat (dofe o p e)) by lia.
  rewrite (tdisc1_at p n r0 r1 Hn) by exact He. rewrite apply_rs, (tdisc0_len p n Hn). unfold incidence0.
  rewrite (rs_ext _ _ (fun q => IZR (transition o p M k (Z.to_nat (dofe o p e))) * (IZR (tE0 o p (Z.to_nat (dofe o p e)) q) * nth q (tdisc0 p n F f) 0))).
  2:{ intros q _. rewrite mult_IZR. ring. }
  rewrite rs_mul, E0_row_R by exact He. f_equal. destruct (start_ok p e He) as (Hs & Ht & _).
  rewrite !(tdisc0_at p n Hn) by assumption.
  destruct o; cbn [int_edge].
  - rewrite <- (ends_of_edge f (flux F J G) e He); [| |exact X].
    + unfold int2_outer. destruct e; reflexivity.
    + intros x y. unfold flux. rewrite !cross2_dot. apply (through2_lim F J (tct_jacobian a b c)). apply HG.
  - rewrite <- (ends_of_edge f (circ F J G) e He); [| |exact X].
    + unfold int2_inner. destruct e; cbn [sgn0]; ring.
    + intros x y. unfold circ. rewrite !(dot2_comm (mcol _ _)). apply (through2_lim F J (tct_jacobian a b c)). apply HG.
Qed.
(* on the collapsed side nothing is integrated *)
Lemma collapsed_0 o v i : int_edge o gr F J v (Dx i 0) = 0.
Proof.
  assert (Z : forall h, (forall x, h x (-1) = 0) -> quad2 gr h (edge_cell (Dx i 0)) = 0).
  { intros h Hh. cbn [edge_cell]. rewrite quad2_Q. unfold Q at 1. rewrite <- (rsum_zero (factor_rule n r0 (true, i))). apply rsum_ext.
    intros pw _. rewrite Q_pt. cbn [hy]. unfold nd. rewrite H0, Hh. ring. }
  destruct o; cbn [int_edge]; unfold int2_outer, int2_inner; rewrite Z; try ring;
    intros x; unfold circ, flux, dot2, cross2, mcol, comp; cbn [along2 edge_cell map fst snd]; rewrite tct_J; cbn [fst snd]; field.
Qed.
Lemma face_sum o v D i j : (i < p)%nat -> (j < p)%nat -> deriv2_of v D ->
  (forall d, integrates_along2 gs (negb d) (match o with Inner => circ F J v d | Outer => flux F J v d end)) ->
  (forall d, agree_along2 n n r0 r1 s0 s1 d (match o with Inner => circ F J v d | Outer => flux F J v d end)) ->
  int2_2 gs F J (match o with Inner => rot2 D | Outer => div2 D end) (face_cell i j) =
  IZR (sgn1 o) * (int_edge o gr F J v (Dx i (j + 1)) - int_edge o gr F J v (Dx i j)) +
  (int_edge o gr F J v (Dy (i + 1) j) - int_edge o gr F J v (Dy i j)).
Proof.
  intros Hi Hj HD X AG. pose proof (tct_jacobian a b c) as HJ. pose proof (tct_mixed a b c) as HM.
  rewrite !Nat.add_1_r. unfold face_cell, int2_2. destruct o; cbn [int_edge sgn1 edge_cell].
  - unfold int2_outer. cbn [along2 orient_out map fst].
    set (hxy := fun _ _ : R => (1 / 4 * (fst b - fst c), 1 / 4 * (snd b - snd c))) in *.
    rewrite (quad2_ext gs _ (fun x y => flux_yx F J hxy v D x y - flux_xy F J hxy v D x y)).
    2:{ intros x y. unfold flux_yx, flux_xy, div2, cross2, dot2, mcol, comp, through2. cbn [fst snd]. ring. }
    rewrite quad2_minus, (stokes2_x gs (flux F J v true) (flux_yx F J hxy v D)), (stokes2_y gs (flux F J v false) (flux_xy F J hxy v D));
      [|cbn [hy]; lia|intros; apply (flux_lim F J HJ hxy HM v D HD)|exact (X false)|cbn [hx]; lia|intros; apply (flux_lim F J HJ hxy HM v D HD)|exact (X true)].
    rewrite !(agree_x n n r0 r1 s0 s1 (flux F J v false)), !(agree_y n n r0 r1 s0 s1 (flux F J v true)) by (try lia; apply AG). lra.
  - unfold int2_inner. cbn [along2 map fst].
    set (hxy := fun _ _ : R => (1 / 4 * (fst b - fst c), 1 / 4 * (snd b - snd c))) in *.
    rewrite (quad2_ext gs _ (fun x y => circ_yx F J hxy v D x y - circ_xy F J hxy v D x y)).
    2:{ intros x y. unfold circ_yx, circ_xy, rot2, cross2, dot2, mcol, comp, through2. cbn [fst snd]. ring. }
    rewrite quad2_minus, (stokes2_x gs (circ F J v true) (circ_yx F J hxy v D)), (stokes2_y gs (circ F J v false) (circ_xy F J hxy v D));
      [|cbn [hy]; lia|intros; apply (circ_lim F J HJ hxy HM v D HD)|exact (X false)|cbn [hx]; lia|intros; apply (circ_lim F J HJ hxy HM v D HD)|exact (X true)].
    rewrite !(agree_x n n r0 r1 s0 s1 (circ F J v false)), !(agree_y n n r0 r1 s0 s1 (circ F J v true)) by (try lia; apply AG). lra.
Qed.
Lemma tri_d1 o M k v D : deriv2_of v D ->
  (forall d, integrates_along2 gs (negb d) (match o with Inner => circ F J v d | Outer => flux F J v d end)) ->
  (forall d, agree_along2 n n r0 r1 s0 s1 d (match o with Inner => circ F J v d | Outer => flux F J v d end)) ->
  mat_times (incidence1 o p M k) (tdisc1 o p n r0 r1 M k F J v) (tdisc2 p n s0 s1 F J (match o with Inner => rot2 D | Outer => div2 D end)).
Proof.
  intros HD X AG r Hr. rewrite tdisc2_len in Hr. destruct (numbers_face p) as (_ & _ & SF).
  destruct (SF r Hr) as ([i j] & [Hi Hj] & E). cbn [fst snd] in *. replace r with (Z.to_nat (tln2 p i j)) by lia.
  rewrite (tdisc2_at p n s0 s1 Hn) by assumption. rewrite apply_rs, (tdisc1_len p n r0 r1 Hn). unfold incidence1.
  rewrite (rs_ext _ _ (fun q => IZR (tE1 o p (Z.to_nat (tln2 p i j)) q) * (IZR (transition o p M k q) * nth q (tdisc1 o p n r0 r1 M k F J v) 0))).
  2:{ intros q _. rewrite mult_IZR. ring. }
  rewrite E1_row_R by assumption.
  assert (V : forall e, edge_ok p e -> IZR (transition o p M k (Z.to_nat (dofe o p e))) * nth (Z.to_nat (dofe o p e)) (tdisc1 o p n r0 r1 M k F J v) 0 = int_edge o gr F J v e).
  { intros e He. rewrite (tdisc1_at p n r0 r1 Hn) by exact He. rewrite <- Rmult_assoc, <- mult_IZR, transition_sq. ring. }
  rewrite !V by (cbn; lia).
  replace (at_dxR _ _ _ _ _) with (int_edge o gr F J v (Dx i j)).
  - apply face_sum; assumption.
  - unfold at_dxR. destruct (Nat.eqb_spec j 0) as [E0|N]; [subst j; apply collapsed_0|]. rewrite V by (cbn; lia). reflexivity.
Qed.
End Tri.
