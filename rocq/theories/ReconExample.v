(* Degrees (2, 1, 1) on the curved element of DiscExample. *)
From Coq Require Import Reals List Lia Lra Arith ZArith.
From Verif Require Import TfiModel TfiSpec CtModel CtSpec RingSum SpaceModel SpaceSpec SpaceProofs3 DiscModel DiscSpec DiscProofs DiscProofs2 DiscProofs3 DiscExample.
From Verif Require Import ReconModel ReconSpec ReconProofs ReconProofs2 ReconProofs3 ReconProofs4 ReconProofs5.
Import ListNotations.
Open Scope R_scope.

Definition P1 : Poly1 := mkPoly1 1 (fun i x => match i with O => (1 - x) / 2 | _ => (1 + x) / 2 end) (fun _ _ => 1 / 2).
Definition P2 : Poly1 := mkPoly1 2
  (fun i x => match i with O => x * (x - 1) / 2 | 1%nat => 1 - x * x | _ => x * (x + 1) / 2 end)
  (fun i x => match i with O => 1 / 2 - x | _ => x + 1 / 2 end).
Definition sp : Space3 := mkSpace3 P2 P1 P1.
Example ex_basis : basis3_of exg sp.
Proof.
  assert (B1 : basis_of [-1; 1] P1).
  { split; [reflexivity|split].
    - intros [|[|i]] [|[|j]] Hi Hj; cbn in Hi, Hj; try lia; cbn; lra.
    - intros u x. cbn. apply (quad_lim _ (u 0%nat / 2 + u 1%nat / 2) (u 1%nat / 2 - u 0%nat / 2) 0); [intros; field|field]. }
  split; [|split; exact B1]. split; [reflexivity|split].
  - intros [|[|[|i]]] [|[|[|j]]] Hi Hj; cbn in Hi, Hj; try lia; cbn; lra.
  - intros u x. cbn. apply (quad_lim _ (u 1%nat) (u 2%nat / 2 - u 0%nat / 2) (u 0%nat / 2 - u 1%nat + u 2%nat / 2)); [intros; field|field].
Qed.
Example ex_rules : rules_exact exg sp.
Proof.
  repeat split; intros u.
  - apply (mid_exact _ _ (u 1%nat) (u 2%nat / 2 - u 0%nat / 2) (u 0%nat / 2 - u 1%nat + u 2%nat / 2)). intros. cbn. field.
  - apply (mid_exact _ _ (u 0%nat / 2 + u 1%nat / 2) (u 1%nat / 2 - u 0%nat / 2) 0). intros. cbn. field.
  - apply (mid_exact _ _ (u 0%nat / 2 + u 1%nat / 2) (u 1%nat / 2 - u 0%nat / 2) 0). intros. cbn. field.
Qed.
Example ex_grid : grid_ok exg.
Proof. intros x H. cbn in H. unfold in_ref. intuition lra. Qed.
(* the cochains of f = X Z, its gradient, v = (-Z, 0, X) and its curl *)
Definition exc0 : list R := map (int0 exg exF exf) (cells [2; 1; 1]%nat nodes3).
Definition exc1 : list R := map (int1 exg exF exJ exv) (cells [2; 1; 1]%nat edges3).
Definition exg1 : list R := map (int1 exg exF exJ exG) (cells [2; 1; 1]%nat edges3).
Ltac open_all := unfold exc0, exc1, exg1, hat0, hat1, hat2, hat3, expand, int0, int1, int2, int3, cell_quad, pull1, pull2, pull3, through, value, exf, exF, exJ, exv, exG, along, normal, col, dot, csum, cross, ent, mrow, rsum; cbn.
Example ex_hat0 : forall x y z, through exf exF x y z = hat0 sp exc0 x y z.
Proof. intros. open_all. field. Qed.
Example ex_hat1 : forall x y z, pulls1 (exJ x y z) (through (value exv) exF x y z) (fun d => hat1 sp exc1 d x y z).
Proof. intros x y z []; open_all; field. Qed.
(* the curl of v, (0, -2, 0), as a 2-form *)
Definition exw : coord -> R -> R -> R -> R := curl_field exD.
Definition exc2 : list R := map (int2 exg exF exJ exw) (cells [2; 1; 1]%nat faces3).
Example ex_hat2 : forall x y z, pulls2 (exJ x y z) (through (value exw) exF x y z) (fun d => hat2 sp exc2 d x y z).
Proof. intros x y z []; unfold exc2, exw, curl_field, curl_of, exD; open_all; field. Qed.
(* E10, E21 on these cochains *)
Example ex_E10 : exists E, E10 (degrees sp) = Some E /\ mat_times E exc0 exg1.
Proof.
  destruct (E10_acts RRing 2 1 1) as (E & HE & _). exists E. split; [exact HE|]. unfold exc0, exg1.
  rewrite <- (disc0_ok exg 2 1 1 exF exf eq_refl eq_refl eq_refl), <- (disc1_ok exg 2 1 1 exF exJ false exG eq_refl eq_refl eq_refl) by discriminate.
  apply (disc_grad exg 2 1 1 exF exJ false exf exG E eq_refl eq_refl eq_refl ex_jacobian);
    [discriminate|exact ex_grad|exact ex_along_f|exact HE].
Qed.
Example ex_E21 : exists E, E21 (degrees sp) = Some E /\ mat_times E exc1 exc2.
Proof.
  destruct (E21_acts RRing 2 1 1) as (E & HE & _). exists E. split; [exact HE|]. unfold exc1, exc2.
  rewrite <- (disc1_ok exg 2 1 1 exF exJ false exv eq_refl eq_refl eq_refl), <- (disc2_ok exg 2 1 1 exF exJ false exw) by discriminate.
  apply (disc_curl exg 2 1 1 exF exJ exH false false exv exD E eq_refl eq_refl eq_refl ex_jacobian ex_second);
    [intros [|]; discriminate|exact ex_deriv|exact ex_along_v|exact HE].
Qed.
(* an affine, orthogonal map, u = (X, 0, 0) with divergence 1 *)
Definition exF2 (c : coord) (x y z : R) : R := match c with cX => 2 * x | cY => y | cZ => z end.
Definition exJ2 (x y z : R) : mat3 := ((2, 0, 0), (0, 1, 0), (0, 0, 1)).
Definition exu2 (c : coord) (x y z : R) : R := match c with cX => x | _ => 0 end.
Definition exD2 (i j : coord) (x y z : R) : R := match i, j with cX, cX => 1 | _, _ => 0 end.
Example ex_jacobian2 : jacobian_of exF2 exJ2.
Proof.
  intros c x y z. destruct c; cbn; repeat split;
    [apply (quad_lim _ 0 2 0)|apply (quad_lim _ (2 * x) 0 0)|apply (quad_lim _ (2 * x) 0 0)
    |apply (quad_lim _ y 0 0)|apply (quad_lim _ 0 1 0)|apply (quad_lim _ y 0 0)
    |apply (quad_lim _ z 0 0)|apply (quad_lim _ z 0 0)|apply (quad_lim _ 0 1 0)]; intros; ring.
Qed.
Example ex_second2 : second_derivs exJ2 (fun _ _ _ _ _ _ => 0).
Proof. split; [|reflexivity]. intros c i x y z. destruct c, i; cbn; repeat split; apply derivable_pt_lim_const. Qed.
Example ex_deriv2 : deriv_of exu2 exD2.
Proof. intros [] x y z; cbn [exu2 exD2]; [apply (grad_coord cX)|apply grad_const|apply grad_const]. Qed.
Definition exc2' : list R := map (int2 exg exF2 exJ2 exu2) (cells [2; 1; 1]%nat faces3).
Definition exc3 : list R := map (int3 exg exF2 exJ2 (div_field exD2)) (cells [2; 1; 1]%nat volumes3).
Example ex_hat2' : forall x y z, pulls2 (exJ2 x y z) (through (value exu2) exF2 x y z) (fun d => hat2 sp exc2' d x y z).
Proof. intros x y z []; unfold exc2', exu2, exF2, exJ2; open_all; field. Qed.
Example ex_hat3 : forall x y z, pulls3 (exJ2 x y z) (through (div_field exD2) exF2 x y z) (hat3 sp exc3 x y z).
Proof. intros x y z; unfold pulls3, det3, exc3, div_field, div_of, exD2, exF2, exJ2; open_all. unfold det3. field. Qed.
Example ex_E32 : exists E, E32 (degrees sp) = Some E /\ mat_times E exc2' exc3.
Proof.
  destruct (E32_acts RRing 2 1 1) as (E & HE & _). exists E. split; [exact HE|]. unfold exc2', exc3.
  assert (D : true = true -> forall x y z, diagonal (exJ2 x y z)).
  { intros _ x y z [] [] H; try (exfalso; apply H; reflexivity); reflexivity. }
  rewrite <- (disc2_ok exg 2 1 1 exF2 exJ2 true exu2 D), <- (disc3_ok exg 2 1 1 exF2 exJ2 (div_field exD2)).
  apply (disc_div exg 2 1 1 exF2 exJ2 (fun _ _ _ _ _ _ => 0) true exu2 exD2 E eq_refl eq_refl eq_refl ex_jacobian2 ex_second2 D ex_deriv2); [|exact HE].
  intros [] k m; cbn; [apply (mid_exact _ _ 0 2 0)|apply (mid_exact _ _ 0 0 0)|apply (mid_exact _ _ 0 0 0)];
    intros; unfold pull2, dot, csum, cross, col, ent, mrow, through, value, exJ2, exF2, exu2, next; cbn [TfiModel.get]; ring.
Qed.
(* rules with positive weights; points where the determinant is positive *)
Definition exq : Rule3 := mkRule3 ([-1; 0; 1], [1 / 3; 4 / 3; 1 / 3]) ([- (1 / 2); 1 / 2], [1; 1]) ([- (1 / 2); 1 / 2], [1; 1]).
Example ex_rules_ok : rules_ok exq.
Proof. repeat split. Qed.
Example ex_weights : positive_weights exq.
Proof. intros w H. cbn in H. intuition lra. Qed.
Example ex_det : on_grid (qmesh exq) (fun x y z => 0 < det3 (exJ x y z)).
Proof. intros x y z X Y Z. cbn in Y. unfold det3, exJ. destruct Y as [<-|[<-|[]]]; lra. Qed.
Example ex_nonzero : on_grid (qmesh exq) (fun x y z => det3 (exJ x y z) <> 0).
Proof. intros x y z X Y Z. assert (D := ex_det x y z X Y Z). cbv beta in D. lra. Qed.
Example ex_separate : rules_separate exq sp.
Proof.
  assert (S1 : separates [- (1 / 2); 1 / 2] P1).
  { split; intros u H i Hi.
    - assert (H0 := H (- (1 / 2)) (or_introl eq_refl)). assert (H1 := H (1 / 2) (or_intror (or_introl eq_refl))). cbn in H0, H1, Hi.
      destruct i as [|[|i]]; [lra|lra|lia].
    - assert (H0 := H (- (1 / 2)) (or_introl eq_refl)). cbn in H0, Hi. destruct i as [|i]; [lra|lia]. }
  split; [|split; exact S1]. split; intros u H i Hi.
  - assert (H0 := H (-1) (or_introl eq_refl)). assert (H1 := H 0 (or_intror (or_introl eq_refl))). assert (H2 := H 1 (or_intror (or_intror (or_introl eq_refl)))).
    cbn in H0, H1, H2, Hi. destruct i as [|[|[|i]]]; [lra|lra|lra|lia].
  - assert (H0 := H (-1) (or_introl eq_refl)). assert (H1 := H 0 (or_intror (or_introl eq_refl))). cbn in H0, H1, Hi.
    destruct i as [|[|i]]; [lra|lra|lia].
Qed.
