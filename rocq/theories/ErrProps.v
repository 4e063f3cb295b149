(* C146, C147: errors of forms. *)
From Coq Require Import Reals List Lra Lia ZArith Arith Permutation Bool.
From Verif Require Import TfiModel TfiSpec CtModel CtSpec RingSum SpaceSpec DiscModel DiscSpec DiscProofs2 DiscExample Disc2Model Disc2Spec Disc2Example ReconModel ReconSpec.
From Verif Require ReconExample TreconExample TdiscExample TriExample.
From Verif Require Import TriModel TreconModel TreconSpec Rec2Model Rec2Spec Rec2Example ErrModel ErrSpec ErrProofs ErrProofs2 ErrProofs3 ErrProofs4 ErrProofs5 ErrProofs6 ErrExample.
Import ListNotations.
Open Scope R_scope.

(* the L^n error is the n-th root of the sum, over all elements of all cores, of
   the quadrature of the n-th powers of the differences of the components of the
   field of the form and the exact field; no number if the sum is negative *)
Theorem C146_structured2 : forall k s r0 r1 n fs cores v, (0 < n)%nat -> rule_ok r0 -> rule_ok r1 -> (forall e, In e (concat cores) -> good2 r0 r1 e) ->
  (forall e, In e (concat cores) -> on_grid2 (fst r0) (fst r1) (fun x y => fields2 k s (f2_c e) (el_J (f2_el e)) x y (v e x y))) ->
  root_of n (rsum (concat cores) (fun e => tquad r0 r1 (fun x y => det2 (el_J (f2_el e) x y) * pow_diff n (v e x y) (exact2 fs (f2_map e) x y)))) (err2 k s r0 r1 n fs cores).
Proof. exact err2_ok. Qed.
Print Assumptions C146_structured2.
(* the 2-form 1 against 0 on two cores *)
Example C146_structured2_ex : err2 K2 rs TreconExample.pos3 TreconExample.pos3 2 [zero2] [[on_re rc2]; []; [on_re rc2]] = Some 4.
Proof.
  destruct (err2_ok K2 rs TreconExample.pos3 TreconExample.pos3 2 [zero2] [[on_re rc2]; []; [on_re rc2]] (fun _ _ _ => [1]) ltac:(lia) (proj1 TreconExample.pos3_ok) (proj1 TreconExample.pos3_ok)) as [P _].
  - intros e [<-|[<-|[]]]; apply re_good.
  - intros e [<-|[<-|[]]] x y _ _; apply hat_one.
  - cbn [concat app] in P. rewrite !rsum_cons in P. rewrite !sum_re in P. destruct (P ltac:(unfold rsum; cbn; lra)) as (r & -> & R & X). f_equal. unfold rsum in X. cbn in X. nra.
Qed.
Theorem C146_triangles : forall k P M r0 r1 n fs cores v, (0 < n)%nat -> rule_ok r0 -> rule_ok r1 -> (forall e, In e (concat cores) -> goodt r0 r1 e) ->
  (forall e, In e (concat cores) -> on_grid2 (fst r0) (fst r1) (fun x y => fieldst k P M (ft_cell e) (ft_c e) (ft_J e) x y (v e x y))) ->
  root_of n (rsum (concat cores) (fun e => tquad r0 r1 (fun x y => det2 (ft_J e x y) * pow_diff n (v e x y) (exact2 fs (ft_map e) x y)))) (errt k P M r0 r1 n fs cores).
Proof. exact errt_ok. Qed.
Print Assumptions C146_triangles.
Example C146_triangles_ex : exists r, errt K2 ReconExample.P2 TriExample.sq_sides TreconExample.pos3 TreconExample.pos3 3 [fun _ _ => -1] [[]; [on_tri TreconExample.tc2]] = Some r /\ r ^ 3 = 16.
Proof.
  destruct (errt_ok K2 ReconExample.P2 TriExample.sq_sides TreconExample.pos3 TreconExample.pos3 3 [fun _ _ => -1] [[]; [on_tri TreconExample.tc2]] (fun _ _ _ => [1]) ltac:(lia) (proj1 TreconExample.pos3_ok) (proj1 TreconExample.pos3_ok)) as [P _].
  - intros e [<-|[]]; apply tri_good.
  - intros e [<-|[]] x y _ _; apply TreconExample.tri_hat2.
  - cbn [concat app] in P. rewrite !rsum_cons in P. rewrite !sum_tri in P. destruct (P ltac:(unfold rsum; cbn; lra)) as (r & -> & R & X). exists r. split; [reflexivity|]. rewrite X. unfold rsum. cbn. lra.
Qed.
Theorem C146_structured3 : forall k s q n fs cores v, (0 < n)%nat -> rules_ok q -> (forall e, In e (concat cores) -> good3 k s (qmesh q) e) ->
  (forall e, In e (concat cores) -> on_grid (qmesh q) (fun x y z => fields3 k s (f3_c e) (f3_J e) x y z (v e x y z))) ->
  root_of n (rsum (concat cores) (fun e => quad3 q (fun x y z => det3 (f3_J e x y z) * pow_diff n (v e x y z) (exact3 fs (f3_map e) x y z)))) (err3 k s q n fs cores).
Proof. exact err3_ok. Qed.
Print Assumptions C146_structured3.
Example C146_structured3_ex : err3 V2 ReconExample.sp ReconExample.exq 2 [zero3; zero3; zero3] [[on_exF ReconExample.exc2]; [on_exF ReconExample.exc2]] = Some 8.
Proof.
  destruct (err3_ok V2 ReconExample.sp ReconExample.exq 2 [zero3; zero3; zero3] [[on_exF ReconExample.exc2]; [on_exF ReconExample.exc2]] (fun _ _ _ _ => [0; -2; 0]) ltac:(lia) ReconExample.ex_rules_ok) as [P _].
  - intros e [<-|[<-|[]]]; apply exF_good; reflexivity.
  - intros e [<-|[<-|[]]] x y z _ _ _; apply ex_field3.
  - cbn [concat app] in P. rewrite !rsum_cons in P. rewrite !sum_exF in P. destruct (P ltac:(unfold rsum; cbn; lra)) as (r & -> & R & X). f_equal. unfold rsum in X. cbn in X. nra.
Qed.

(* the error does not depend on how the elements are spread over the cores *)
Theorem C146_cores : forall k s r0 r1 q P M n fs gs, (0 < n)%nat ->
  (forall c c', Permutation (concat c) (concat c') -> err2 k s r0 r1 n fs c = err2 k s r0 r1 n fs c') /\
  (forall c c', Permutation (concat c) (concat c') -> errt k P M r0 r1 n fs c = errt k P M r0 r1 n fs c') /\
  (forall k3 s3 c c', Permutation (concat c) (concat c') -> err3 k3 s3 q n gs c = err3 k3 s3 q n gs c').
Proof. exact all_cores. Qed.
Print Assumptions C146_cores.
Example C146_cores_ex : err2 K2 rs TreconExample.pos3 TreconExample.pos3 2 [zero2] [[on_re [1; 2; 3; 4]]; []; [on_re rc2]] = err2 K2 rs TreconExample.pos3 TreconExample.pos3 2 [zero2] [[on_re rc2; on_re [1; 2; 3; 4]]].
Proof. apply err2_cores; [lia|]. apply perm_swap. Qed.

(* for even n the error is a number and it vanishes iff the exact field has the
   values of the field of the form at all points of the quadrature *)
Theorem C146_even : forall k s r0 r1 m fs cores, (0 < m)%nat -> rule_ok r0 -> rule_ok r1 -> weights_pos r0 -> weights_pos r1 ->
  (forall e, In e (concat cores) -> right2 r0 r1 e /\ orth_ok (f2_el e) (fst r0) (fst r1)) -> exists r, err2 k s r0 r1 (2 * m) fs cores = Some r /\ 0 <= r.
Proof. exact even_number. Qed.
Print Assumptions C146_even.
Example C146_even_ex : exists r, err2 (K1 Outer) rs TreconExample.pos3 TreconExample.pos3 (2 * 2) [zero2; zero2] [[on_re rc1o]; [on_re rcw]] = Some r /\ 0 <= r.
Proof.
  apply even_number; try apply TreconExample.pos3_ok; [lia|]. intros e [<-|[<-|[]]]; apply re_right.
Qed.
Theorem C146_zero2 : forall k s r0 r1 m fs cores, (0 < m)%nat -> rule_ok r0 -> rule_ok r1 -> weights_pos r0 -> weights_pos r1 -> length fs = num2 k ->
  (forall e, In e (concat cores) -> right2 r0 r1 e /\ orth_ok (f2_el e) (fst r0) (fst r1)) ->
  (err2 k s r0 r1 (2 * m) fs cores = Some 0 <->
   forall e, In e (concat cores) -> on_grid2 (fst r0) (fst r1) (fun x y => fields2 k s (f2_c e) (el_J (f2_el e)) x y (exact2 fs (f2_map e) x y))).
Proof. exact err2_zero. Qed.
Print Assumptions C146_zero2.
Example C146_zero2_ex : err2 (K1 Outer) rs TreconExample.pos3 TreconExample.pos3 (2 * 1) [fst exu2; snd exu2] [[on_re rc1o]] = Some 0 /\
  err2 (K1 Outer) rs TreconExample.pos3 TreconExample.pos3 (2 * 1) [fst exu2; snd exu2] [[on_re rc1o]; [on_re rcw]] <> Some 0.
Proof.
  split.
  - apply err2_zero; try apply TreconExample.pos3_ok; [lia|reflexivity| |].
    + intros e [<-|[]]. apply re_right.
    + intros e [<-|[]] x y _ _. exact (hat_u x y).
  - intros H. assert (W := err2_zero (K1 Outer) rs TreconExample.pos3 TreconExample.pos3 1 [fst exu2; snd exu2] [[on_re rc1o]; [on_re rcw]] ltac:(lia)
      (proj1 TreconExample.pos3_ok) (proj1 TreconExample.pos3_ok) (proj2 TreconExample.pos3_ok) (proj2 TreconExample.pos3_ok) eq_refl).
    destruct W as [W _]; [intros e [<-|[<-|[]]]; apply re_right|]. specialize (W H). clear H. rename W into H.
    specialize (H (on_re rcw) (or_intror (or_introl eq_refl)) 0 0 ltac:(cbn; tauto) ltac:(cbn; tauto)).
    assert (E := fields2_one (K1 Outer) rs rcw exJ2 0 0 _ [1; 0] ltac:(pose proof (re_det 0 0) as Q; cbn [el_J re] in Q; rewrite Q; lra) H (hat_w 0 0)).
    revert E. unfold exact2, through2, exu2, on_re, exF2. cbn. intros E. injection E. intros. lra.
Qed.
Theorem C146_zero_triangles : forall k P M r0 r1 m fs cores, (0 < m)%nat -> rule_ok r0 -> rule_ok r1 -> weights_pos r0 -> weights_pos r1 -> length fs = num2 k ->
  (forall e, In e (concat cores) -> rightt r0 r1 e) ->
  (errt k P M r0 r1 (2 * m) fs cores = Some 0 <->
   forall e, In e (concat cores) -> on_grid2 (fst r0) (fst r1) (fun x y => fieldst k P M (ft_cell e) (ft_c e) (ft_J e) x y (exact2 fs (ft_map e) x y))).
Proof. exact errt_zero. Qed.
Print Assumptions C146_zero_triangles.
Example C146_zero_triangles_ex : errt (K1 Inner) ReconExample.P2 TriExample.sq_sides TreconExample.pos3 TreconExample.pos3 (2 * 1) [fst TreconExample.tv; snd TreconExample.tv] [[]; [on_tri TreconExample.tc1]] = Some 0.
Proof.
  apply errt_zero; try apply TreconExample.pos3_ok; [lia|reflexivity| |].
  - intros e [<-|[]]. exact TreconExample.pos3_det.
  - intros e [<-|[]] x y _ _. exact (TreconExample.tri_hat1 x y).
Qed.
Theorem C146_zero3 : forall k s q m fs cores, (0 < m)%nat -> rules_ok q -> positive_weights q -> length fs = num3 k ->
  (forall e, In e (concat cores) -> right3 (qmesh q) e /\ good3 k s (qmesh q) e) ->
  (err3 k s q (2 * m) fs cores = Some 0 <->
   forall e, In e (concat cores) -> on_grid (qmesh q) (fun x y z => fields3 k s (f3_c e) (f3_J e) x y z (exact3 fs (f3_map e) x y z))).
Proof. exact err3_zero. Qed.
Print Assumptions C146_zero3.
Example C146_zero3_ex : err3 V2 ReconExample.sp ReconExample.exq (2 * 2) [zero3; fun _ _ _ => -2; zero3] [[on_exF ReconExample.exc2]; []] = Some 0.
Proof.
  apply err3_zero; [lia|exact ReconExample.ex_rules_ok|exact ReconExample.ex_weights|reflexivity| |].
  - intros e [<-|[]]. split; [exact ReconExample.ex_det|apply exF_good; reflexivity].
  - intros e [<-|[]] x y z _ _ _. exact (ex_field3 x y z).
Qed.

(* the discretization of a field of the space has no error *)
Theorem C146_discretized2 : forall k s g r0 r1 m fs cores, (0 < m)%nat -> rule_ok r0 -> rule_ok r1 -> weights_pos r0 -> weights_pos r1 ->
  (forall x, In x (fst r0) \/ In x (fst r1) -> in_ref x) -> basis2_of g s -> exact2_for g s -> grid2_ok g ->
  (forall e, In e (concat cores) -> right2 r0 r1 e /\ (el_orth (f2_el e) = true -> forall x y, diagonal2 (el_J (f2_el e) x y)) /\ discretized2 k g s fs e /\
     exists c, length c = length (cells2 k s) /\ in_square (fun x y => fields2 k s c (el_J (f2_el e)) x y (exact2 fs (f2_map e) x y))) ->
  err2 k s r0 r1 (2 * m) fs cores = Some 0.
Proof. exact err2_discretized. Qed.
Print Assumptions C146_discretized2.
Example C146_discretized2_ex : err2 K0 rs TreconExample.pos3 TreconExample.pos3 (2 * 1) [exf2] [[on_re (disc2_0 exN0 exN0 exF2 exf2)]] = Some 0.
Proof.
  apply (err2_discretized K0 rs rg); try apply TreconExample.pos3_ok; [lia| |exact rs_basis|exact rs_exact|exact rg_ok|].
  - intros x H. unfold in_ref. cbn in H. intuition lra.
  - intros e [<-|[]]. split; [exact re_pos|]. split; [discriminate|]. split; [reflexivity|]. exists rc0. split; [reflexivity|]. intros x y _ _. exact (hat_f x y).
Qed.
Theorem C146_discretized3 : forall k s g q m fs cores, (0 < m)%nat -> rules_ok q -> positive_weights q ->
  on_grid (qmesh q) (fun x y z => in_ref x /\ in_ref y /\ in_ref z) -> basis3_of g s -> rules_exact g s -> grid_ok g ->
  (forall e, In e (concat cores) -> right3 (qmesh q) e /\ (f3_orth e = true -> forall x y z, diagonal (f3_J e x y z)) /\ discretized3 k g s fs e /\
     exists c, length c = length (cells3 k s) /\ in_element (fun x y z => fields3 k s c (f3_J e) x y z (exact3 fs (f3_map e) x y z))) ->
  err3 k s q (2 * m) fs cores = Some 0.
Proof. exact err3_discretized. Qed.
Print Assumptions C146_discretized3.
Example C146_discretized3_ex : err3 V2 ReconExample.sp ReconExample.exq (2 * 1) [zero3; fun _ _ _ => -2; zero3]
  [[on_exF (disc2 [-1; 0; 1] [-1; 1] [-1; 1] 2 1 1 DiscExample.mid DiscExample.mid DiscExample.mid DiscExample.exF DiscExample.exJ false (fun i => match i with cX => zero3 | cY => fun _ _ _ => -2 | cZ => zero3 end))]] = Some 0.
Proof.
  apply (err3_discretized V2 ReconExample.sp exg); [lia|exact ReconExample.ex_rules_ok|exact ReconExample.ex_weights| |exact ReconExample.ex_basis|exact ReconExample.ex_rules|exact ReconExample.ex_grid|].
  - intros x y z X Y Z. unfold in_ref. cbn in X, Y, Z. intuition lra.
  - intros e [<-|[]]. split; [exact ReconExample.ex_det|]. split; [discriminate|]. split; [reflexivity|]. exists ReconExample.exc2. split; [reflexivity|]. intros x y z _ _ _. exact (ex_field3 x y z).
Qed.

(* odd n: the error can vanish for different fields, and can be no number *)
Theorem C146_odd_zero_refuted : ~ (forall k s r0 r1 n fs cores, (0 < n)%nat -> rule_ok r0 -> rule_ok r1 -> weights_pos r0 -> weights_pos r1 -> length fs = num2 k ->
  (forall e, In e (concat cores) -> right2 r0 r1 e /\ orth_ok (f2_el e) (fst r0) (fst r1)) ->
  err2 k s r0 r1 n fs cores = Some 0 ->
  forall e, In e (concat cores) -> on_grid2 (fst r0) (fst r1) (fun x y => fields2 k s (f2_c e) (el_J (f2_el e)) x y (exact2 fs (f2_map e) x y))).
Proof. exact odd_zero_refuted. Qed.
Print Assumptions C146_odd_zero_refuted.
Example C146_odd_zero_ex : err2 K0 rs1 sym2 sym2 1 [zero2] [[on_ru cx]] = Some 0.
Proof. exact odd_zero. Qed.
Theorem C146_odd_number_refuted : ~ (forall k s r0 r1 n fs cores, (0 < n)%nat -> rule_ok r0 -> rule_ok r1 -> weights_pos r0 -> weights_pos r1 -> length fs = num2 k ->
  (forall e, In e (concat cores) -> right2 r0 r1 e /\ orth_ok (f2_el e) (fst r0) (fst r1)) -> exists r, err2 k s r0 r1 n fs cores = Some r).
Proof. exact odd_none_refuted. Qed.
Print Assumptions C146_odd_number_refuted.
Example C146_odd_number_ex : err2 K0 rs1 sym2 sym2 1 [zero2] [[on_ru cm]] = None.
Proof. exact odd_none. Qed.

(* the L-infinity error is the greatest difference of a component at a node of an
   element, wherever the element is; without elements there is none *)
Theorem C147_infinity : forall k s m fs cores v, has_points m -> length fs = num3 k -> concat cores <> [] -> (forall e, In e (concat cores) -> good3 k s m e) ->
  (forall e, In e (concat cores) -> on_grid m (fun x y z => fields3 k s (f3_c e) (f3_J e) x y z (v e x y z))) ->
  exists g, err3_inf k s m fs cores = Some g /\ greatest (a_diff3 m fs (concat cores) v) g.
Proof. exact err3_inf_ok. Qed.
Print Assumptions C147_infinity.
Example C147_infinity_ex : err3_inf V2 ReconExample.sp (qmesh ReconExample.exq) [zero3; zero3; fun _ _ _ => 1] [[]; [on_exF ReconExample.exc2]] = Some 2.
Proof.
  destruct (err3_inf_ok V2 ReconExample.sp (qmesh ReconExample.exq) [zero3; zero3; fun _ _ _ => 1] [[]; [on_exF ReconExample.exc2]] (fun _ _ _ _ => [0; -2; 0])) as (g & -> & P & Mx).
  - repeat split; discriminate.
  - reflexivity.
  - discriminate.
  - intros e [<-|[]]. apply exF_good. reflexivity.
  - intros e [<-|[]] x y z _ _ _. apply ex_field3.
  - f_equal. apply Rle_antisym.
    + destruct P as (e & x & y & z & j & a & b & _ & _ & _ & _ & A & B & ->). destruct j as [|[|[|j]]]; [| | |destruct j; discriminate]; injection A as <-; injection B as <-; unfold zero3, through; apply Rabs_le; lra.
    + apply Mx. exists (on_exF ReconExample.exc2), 0, (1 / 2), (1 / 2), 1%nat, (-2), 0. repeat split; try (cbn; tauto). unfold Rabs. destruct (Rcase_abs (-2 - 0)); lra.
Qed.
Theorem C147_no_elements : forall (X : Type) (fs : list (X -> R)) cores, concat cores = [] -> err_inf fs cores = None.
Proof. exact @err_inf_none. Qed.
Print Assumptions C147_no_elements.
Example C147_no_elements_ex : err3_inf V0 ReconExample.sp (qmesh ReconExample.exq) [zero3] [[]; []] = None.
Proof. apply err_inf_none. reflexivity. Qed.
(* the nodes: midpoints of the intervals of the axis split in n equal ones, n the
   integer nearest to the root of the density, but 3 for less than one per element *)
Theorem C147_nodes : forall r, exists n, (0 < n)%nat /\ (1 <= r -> Rabs (INR n - r) <= 1 / 2) /\ (r < 1 -> n = 3%nat) /\
  inf_nodes r = map (fun i => -1 + (2 * INR i + 1) / INR n) (seq 0 n).
Proof. exact inf_nodes_ok. Qed.
Print Assumptions C147_nodes.
Example C147_nodes_ex : inf_nodes (1 / 2) = [-1 + 1 / 3; 0; 1 - 1 / 3].
Proof.
  destruct (inf_nodes_ok (1 / 2)) as (n & _ & _ & H & ->). rewrite (H ltac:(lra)). cbn. repeat (apply f_equal2; [field|]). reflexivity.
Qed.
(* a greater density need not give more nodes *)
Theorem C147_more_nodes_refuted : ~ (forall a b, 0 < a -> a <= b -> (length (inf_nodes a) <= length (inf_nodes b))%nat).
Proof. exact inf_monotone_refuted. Qed.
Print Assumptions C147_more_nodes_refuted.
Example C147_more_nodes_ex : length (inf_nodes (1 / 2)) = 3%nat.
Proof. rewrite C147_nodes_ex. reflexivity. Qed.

(* the upon branch with the exact field: no change when constants are added to the
   values of the form, and no error for values that are off by constants *)
Theorem C147_upon_constants : forall (X : Type) (gs : list (X -> R)) n w fs cores a k, (forall e, In e (concat cores) -> shaped k e) -> length a = k -> length gs = k ->
  err_upon (Some gs) n w fs (map (map (shift_by a)) cores) = err_upon (Some gs) n w fs cores.
Proof. exact @upon_invariant. Qed.
Print Assumptions C147_upon_constants.
Example C147_upon_constants_ex : let els := [[]; [mkEel [1; 2] [[2; 5]] [1; 3]]] in
  err_upon (Some [fun x : R => x]) 2 [1; 1] [fun x => x] (map (map (shift_by [7])) els) = err_upon (Some [fun x : R => x]) 2 [1; 1] [fun x => x] els.
Proof. apply (upon_invariant _ _ _ _ _ _ 1); try reflexivity. intros e [<-|[]]. split; [reflexivity|]. split; [|reflexivity]. intros v [<-|[]]. reflexivity. Qed.
Theorem C147_upon_exact : forall (X : Type) n w (fs : list (X -> R)) cores a, (0 < n)%nat -> length a = length fs -> concat cores <> [] ->
  (forall e, In e (concat cores) -> off_by fs a e /\ xyz e <> []) -> err_upon (Some fs) n w fs cores = Some 0.
Proof. exact @upon_exact. Qed.
Print Assumptions C147_upon_exact.
Example C147_upon_exact_ex : err_upon (Some [fun x : R => x + 1]) 2 [1] [fun x : R => x + 1] [[]; [mkEel [1] [[3]] [1]]] = Some 0.
Proof. apply (upon_exact _ _ _ _ [1]); [lia|reflexivity|discriminate|exact off_ex]. Qed.
(* in the code the branch reads an attribute the forms do not have *)
Theorem C147_upon_refuted : ~ (forall n w (fs : list (R -> R)) cores a, (0 < n)%nat -> length a = length fs -> concat cores <> [] ->
  (forall e, In e (concat cores) -> off_by fs a e /\ xyz e <> []) -> err_upon form_func n w fs cores = Some 0).
Proof. exact upon_refuted. Qed.
Print Assumptions C147_upon_refuted.
Example C147_upon_ex : err_upon form_func 2 [1] [fun x : R => x + 1] [[]; [mkEel [1] [[3]] [1]]] = None.
Proof. reflexivity. Qed.

(* the H error: its square is the sum of the squares of the L2 errors of the form
   and of its derivative; it vanishes iff both do *)
Theorem C147_H : forall a b, exists h, err_H (Some a) (Some b) = Some h /\ 0 <= h /\ h ^ 2 = a ^ 2 + b ^ 2.
Proof. exact err_H_ok. Qed.
Print Assumptions C147_H.
Example C147_H_ex : err_H (Some 3) (Some 4) = Some 5.
Proof. destruct (err_H_ok 3 4) as (h & -> & P & E). f_equal. nra. Qed.
Theorem C147_H_zero : forall a b, err_H (Some a) (Some b) = Some 0 <-> a = 0 /\ b = 0.
Proof. exact err_H_zero. Qed.
Print Assumptions C147_H_zero.
Example C147_H_zero_ex : err_H (Some 0) (Some 1) <> Some 0.
Proof. intros H. apply err_H_zero in H. lra. Qed.
