(* Elements of degrees (2, 1, 1) and (1, 1, 1) for the theorems on dual forms. *)
From Coq Require Import Reals List Arith ZArith Lia Lra.
From Verif Require Import Prelude AssembleModel RingSum SpaceModel SpaceSpec TfiModel TfiSpec CtModel CtSpec DiscModel DiscSpec DiscExample ReconModel ReconSpec ReconProofs ReconExample.
From Verif Require Import CrossProofs TrfModel TrfSpec TrfProofs4 TrfExample AdfModel AdfSpec AdfProofs AdfProofs2 AdfProofs3.
Import ListNotations.
Open Scope R_scope.

Ltac list_eq := repeat (apply f_equal2; [try (f_equal; list_eq); field|]); reflexivity.
(* two 2 x 2 matrices and their inverses *)
Definition aM (i : nat) : matrix := match i with O => [[2; 1]; [1; 1]] | _ => [[2; 0]; [0; 4]] end.
Definition aI (i : nat) : matrix := match i with O => [[1; -1]; [-1; 2]] | _ => [[1 / 2; 0]; [0; 1 / 4]] end.
Example ex_inv : forall i, In i [0%nat; 1%nat] -> inverse_of (aM i) (aI i) 2.
Proof.
  intros i I. assert (S : forall a b c d : R, has_shape [[a; b]; [c; d]] 2 2) by (intros; split; [reflexivity|]; intros row [<-|[<-|[]]]; reflexivity).
  destruct I as [<-|[<-|[]]]; (split; [apply S|]; split; [apply S|]); intros c L; destruct c as [|x [|y [|]]]; try discriminate L; unfold times, rsum; cbn; split; (f_equal; [field|f_equal; field]).
Qed.
Definition aD : ldict := [(1%nat, [6; 8]); (0%nat, [5; 3])].
Example ex_covers : covers [0%nat; 1%nat] 2 aD.
Proof. split; [reflexivity|]. intros i [<-|[<-|[]]]; eexists; split; reflexivity. Qed.

(* transposes of integer matrices *)
Lemma dense_table n m E t : map (fun c => map (fun r => E r c) (seq 0 n)) (seq 0 m) = t -> dense_T n m E = map (map IZR) t.
Proof. intros <-. unfold dense_T. rewrite map_map. apply map_ext. intros c. rewrite map_map. reflexivity. Qed.
Definition zT (n m : nat) (E : option (nat -> nat -> Z)) : option (list (list Z)) := option_map (fun E => map (fun c => map (fun r => E r c) (seq 0 n)) (seq 0 m)) E.
Lemma table_of n m E t : zT n m E = Some t -> option_map (dense_T n m) E = Some (map (map IZR) t).
Proof. destruct E as [E|]; [|discriminate]. cbn. intros H. injection H as H. rewrite (dense_table n m E t H). reflexivity. Qed.
Lemma table_neg n m E t : zT n m E = Some t -> option_map (fun E => negative (dense_T n m E)) E = Some (negative (map (map IZR) t)).
Proof. destruct E as [E|]; [|discriminate]. cbn. intros H. injection H as H. rewrite (dense_table n m E t H). reflexivity. Qed.
(* one cell: the dual 3-form 5 with traces 1, .., 6 *)
Example ex_step : dual_coboundary [7%nat] [1; 1; 1]%nat 3 2 (fun _ => Some [5]) (fun _ => Some [1; 2; 3; 4; 5; 6]) = Some [(7%nat, [4; -3; 2; -1; 0; 1])].
Proof.
  unfold dual_coboundary, dual_E, dual_T. erewrite table_neg by (vm_compute; reflexivity). erewrite table_of by (vm_compute; reflexivity). cbv [map all_some]. 
  unfold dual_step, matvec, negative. cbn [map forallb length Nat.eqb andb lsum map2 fold_right option_map]. 
  apply (f_equal Some). apply (f_equal2 cons); [|reflexivity]. apply (f_equal (pair 7%nat)). unfold lsum. cbn. repeat (apply (f_equal2 cons); [ring|]). reflexivity.
Qed.

(* the identity on degrees (2, 1, 1): the constants 1 *)
Definition idJ (x y z : R) : mat3 := ((1, 0, 0), (0, 1, 0), (0, 0, 1)).
Lemma id_area s x y z : norm (area_vec (idJ x y z) s) = 1.
Proof. transitivity (sqrt 1); [|apply sqrt_1]. unfold norm. f_equal. destruct s; unfold area_vec, dot, csum, cross, col, ent, mrow, idJ; cbn; ring. Qed.
Lemma id_nonzero s x y z : area_vec (idJ x y z) s <> zero_vec.
Proof. intros H. pose proof (id_area s x y z) as N. rewrite H in N. unfold norm, zero_vec, dot, csum in N. cbn in N. replace (0 * 0 + 0 * 0 + 0 * 0) with 0 in N by ring. rewrite sqrt_0 in N. lra. Qed.
Definition ex_ts (s : tside) : list R := match s with tN | tS => [4] | _ => [2; 2] end.
Definition ex_ct : list R := flat_map ex_ts all_sides.
Example ex_pieces : side_pieces D2 sp ex_ct ex_ts.
Proof. split; [reflexivity|]. intros []; reflexivity. Qed.
Lemma ex_d3 : times (inner3 sp sp exq idJ) [4; 4] = [1; 1].
Proof.
  apply (pairing_ext 2); [reflexivity|reflexivity|]. intros v L. destruct v as [|a [|b [|]]]; try discriminate L.
  rewrite <- (bilinear_pairing (inner3 sp sp exq idJ) [a; b] [4; 4]).
  rewrite (ReconProofs4.inner3_ok sp sp exq idJ ex_rules_ok) with (vo := hat3 sp [a; b]) (vs := hat3 sp [4; 4]).
  - unfold quad3, rsum, hat3, expand, det3, idJ, pairing. cbn. unfold rsum. cbn. field.
  - intros x y z _ _ _. unfold det3, idJ. lra.
  - intros x y z _ _ _. unfold pulls3, det3, idJ. ring.
  - intros x y z _ _ _. unfold pulls3, det3, idJ. ring.
Qed.
Lemma ex_side s : times (trf_mass D2 sp exq idJ s) (ex_ts s) = repeat 1 (nface D2 sp s).
Proof.
  apply (pairing_ext (nface D2 sp s)); [rewrite times_len; apply mass_shape|apply repeat_length|]. intros v L.
  rewrite <- (bilinear_pairing (trf_mass D2 sp exq idJ s) v (ex_ts s)).
  rewrite (trf_mass2_ok sp exq idJ s v (ex_ts s) (side_hat D2 sp s v) (side_hat D2 sp s (ex_ts s)) ex_rules_ok).
  2:{ intros x y z _ _ _. rewrite id_area. split; [apply id_nonzero|]. split; ring. }
  rewrite (quad3_ext (side_rule s exq) _ (fun x y z => side_hat D2 sp s v x y z * side_hat D2 sp s (ex_ts s) x y z)); [|intros x y z _ _ _; rewrite id_area; ring|apply rules_side; exact ex_rules_ok].
  unfold quad3, rsum. destruct s; cbn in L; (destruct v as [|a v]; [discriminate L|]); try (destruct v as [|b v]; [discriminate L|]); destruct v; try discriminate L;
  unfold side_rule, on_axis3, exq; cbn; unfold side_hat, pairing, rsum; cbn; field.
Qed.
Lemma times_zero A n : length A = n -> times A (repeat 0 n) = repeat 0 n.
Proof.
  intros S. apply (nth_ext _ _ 0 0); [rewrite times_len, repeat_length; exact S|]. intros i Hi. rewrite times_len in Hi.
  unfold times. rewrite (nth_indep _ 0 (pairing [] (repeat 0 n))) by (rewrite map_length; exact Hi). rewrite (map_nth (fun row => pairing row (repeat 0 n)) A []).
  rewrite nth_repeat, pairing_sq. unfold sq. apply ReconProofs.rsum_zero'. intros k _. replace (nth k (repeat 0 n) 0) with 0; [ring|].
  symmetry. destruct (Nat.lt_ge_cases k n); [apply nth_repeat|apply nth_overflow; rewrite repeat_length; assumption].
Qed.
Example ex_weak3 : weak_d 3 (degrees sp) (times (inner3 sp sp exq idJ) [4; 4]) (times (mass6 D2 sp exq idJ) ex_ct) (times (inner2 true false sp sp exq idJ) (repeat 0 11)).
Proof.
  rewrite ex_d3. destruct (times_bdiag (trf_mass D2 sp exq idJ) ex_ts all_sides) as (_ & T).
  { intros s _. rewrite (proj2 ex_pieces s). apply mass_shape. }
  assert (O : flat_map (fun s => times (trf_mass D2 sp exq idJ s) (ex_ts s)) all_sides = repeat 1 10).
  { unfold all_sides. cbn [flat_map]. rewrite !ex_side. reflexivity. }
  assert (TO : times (mass6 D2 sp exq idJ) ex_ct = repeat 1 10) by exact (eq_trans T O). rewrite TO. assert (Z : times (inner2 true false sp sp exq idJ) (repeat 0 11) = repeat 0 11).
  { assert (S : length (inner2 true false sp sp exq idJ) = 11%nat) by (rewrite ReconProofs4.inner2_kmat by reflexivity; unfold ReconProofs4.inner2_k; apply ReconProofs4.shape_kmat).
    exact (times_zero _ 11 S). }
  rewrite Z. destruct (step_weak 2 1 1 ltac:(repeat constructor) 3 [1; 1] (repeat 1 10) ltac:(lia) eq_refl eq_refl) as (E & T' & r & _ & _ & _ & W).
  assert (R0 := weak_ones 2 1 1 ltac:(repeat constructor) r W). rewrite R0 in W. exact W.
Qed.

(* degrees (1, 1, 1): the vector (1, 0, 0), with its components at the sides *)
Definition sp1 : Space3 := mkSpace3 P1 P1 P1.
Definition g1 : Grid := mkGrid [-1; 1] [-1; 1] [-1; 1] mid mid mid.
Example ex_basis1 : basis3_of g1 sp1.
Proof. destruct ex_basis as (_ & B & C). split; [exact B|]. split; assumption. Qed.
Example ex_ends1 : ends_ok g1 1 1 1.
Proof. repeat split. Qed.
Definition ex_c1 : list R := [2; 2; 2; 2; 0; 0; 0; 0; 0; 0; 0; 0].
Definition ex_ts0 (s : tside) : list R := match s with tN | tS => [1; 1; 1; 1] | _ => [0; 0; 0; 0] end.
Definition ex_ct0 : list R := flat_map ex_ts0 all_sides.
Example ex_pieces0 : side_pieces D0 sp1 ex_ct0 ex_ts0.
Proof. split; [reflexivity|]. intros []; reflexivity. Qed.
Lemma id_det (q : Rule3) : on_grid (qmesh q) (fun x y z => det3 (idJ x y z) <> 0).
Proof. intros x y z _ _ _. unfold det3, idJ. lra. Qed.
Definition as_vec (u : coord -> R) : vec := (u cX, u cY, u cZ).
Lemma id_pulls1 x y z u : pulls1 (idJ x y z) (as_vec u) u.
Proof. intros []; unfold dot, csum, col, ent, mrow, idJ, as_vec; cbn; ring. Qed.
Lemma ex_d1 : times (inner1 true false sp1 sp1 exq idJ) ex_c1 = [1; 1; 1; 1; 0; 0; 0; 0; 0; 0; 0; 0].
Proof.
  apply (pairing_ext 12); [rewrite times_len, ReconProofs4.inner1_kmat by reflexivity; apply ReconProofs4.shape_kmat|reflexivity|]. intros v L.
  rewrite <- (bilinear_pairing (inner1 true false sp1 sp1 exq idJ) v ex_c1).
  rewrite (ReconProofs4.inner1_ok sp1 sp1 exq idJ true false ex_rules_ok (id_det exq)) with (vo := fun x y z => as_vec (fun d => hat1 sp1 v d x y z)) (vs := fun x y z => (1, 0, 0)).
  - do 12 (destruct v as [|? v]; [discriminate L|]). destruct v; [|discriminate L]. unfold quad3, rsum, dot, csum, as_vec, det3, idJ, pairing, hat1, expand. cbn. unfold rsum. cbn. field.
  - discriminate.
  - reflexivity.
  - intros x y z _ _ _. apply id_pulls1.
  - intros x y z _ _ _ []; unfold dot, csum, col, ent, mrow, idJ, hat1, expand, ex_c1, rsum; cbn; field.
Qed.
Lemma ex_side0 s : times (trf_mass D0 sp1 exq idJ s) (ex_ts0 s) = ex_ts0 s.
Proof.
  apply (pairing_ext (nface D0 sp1 s)); [rewrite times_len; apply mass_shape|symmetry; destruct s; reflexivity|]. intros v L.
  rewrite <- (bilinear_pairing (trf_mass D0 sp1 exq idJ s) v (ex_ts0 s)). rewrite (trf_mass0_ok sp1 exq idJ s v (ex_ts0 s) ex_rules_ok).
  rewrite (quad3_ext (side_rule s exq) _ (fun x y z => side_hat D0 sp1 s v x y z * side_hat D0 sp1 s (ex_ts0 s) x y z)); [|intros x y z _ _ _; rewrite id_area; ring|apply rules_side; exact ex_rules_ok].
  unfold quad3, rsum. destruct s; cbn in L; do 4 (destruct v as [|? v]; [discriminate L|]); destruct v; try discriminate L;
  unfold side_rule, on_axis3, exq; cbn; unfold side_hat, pairing, rsum; cbn; field.
Qed.
Example ex_weak1 : weak_d 1 (degrees sp1) (times (inner1 true false sp1 sp1 exq idJ) ex_c1) (times (mass6 D0 sp1 exq idJ) ex_ct0) (times (inner0 sp1 sp1 exq idJ) (repeat 0 8)).
Proof.
  rewrite ex_d1. destruct (times_bdiag (trf_mass D0 sp1 exq idJ) ex_ts0 all_sides) as (_ & T).
  { intros s _. rewrite (proj2 ex_pieces0 s). apply mass_shape. }
  assert (O : flat_map (fun s => times (trf_mass D0 sp1 exq idJ s) (ex_ts0 s)) all_sides = ex_ct0).
  { unfold all_sides. cbn [flat_map]. rewrite !ex_side0. reflexivity. }
  assert (TO : times (mass6 D0 sp1 exq idJ) ex_ct0 = ex_ct0) by exact (eq_trans T O). rewrite TO.
  assert (Z : times (inner0 sp1 sp1 exq idJ) (repeat 0 8) = repeat 0 8).
  { assert (S : length (inner0 sp1 sp1 exq idJ) = 8%nat) by (rewrite ReconProofs4.inner0_kmat; apply ReconProofs4.shape_kmat). exact (times_zero _ 8 S). }
  rewrite Z. destruct (step_weak 1 1 1 ltac:(repeat constructor) 1 [1; 1; 1; 1; 0; 0; 0; 0; 0; 0; 0; 0] ex_ct0 ltac:(lia) eq_refl eq_refl) as (E & T' & r & HE & HT & HS & W).
  enough (r = repeat 0 8) as <- by exact W. cbn [Nat.sub] in HT. unfold dual_E in HE. unfold dual_T in HT.
  erewrite table_neg in HE by (vm_compute; reflexivity). erewrite table_of in HT by (vm_compute; reflexivity). apply some_eq in HE, HT. subst E T'.
  unfold dual_step, matvec, negative, ex_ct0, all_sides, ex_ts0 in HS. cbn [flat_map app map forallb length Nat.eqb andb map2] in HS. apply some_eq in HS. subst r.
  unfold lsum. cbn. repeat (apply (f_equal2 cons); [ring|]). reflexivity.
Qed.

(* multiples of the identity *)
Definition idm (n : nat) (x : R) : matrix := map (fun i => map (fun j => if (i =? j)%nat then x else 0) (seq 0 n)) (seq 0 n).
Lemma idm_shape {x} : has_shape (idm 6 x) 6 6.
Proof. split; [reflexivity|]. intros row I. apply in_map_iff in I as (i & <- & _). reflexivity. Qed.
Lemma idm_inv : inverse_of (idm 6 2) (idm 6 (1 / 2)) 6.
Proof.
  split; [apply idm_shape|]. split; [apply idm_shape|]. intros c L. do 6 (destruct c as [|? c]; [discriminate L|]). destruct c; [|discriminate L].
  unfold times, rsum; cbn; split; repeat (apply (f_equal2 cons); [field|]); reflexivity.
Qed.
Lemma one_shape : has_shape [[5]] 1 1.
Proof. split; [reflexivity|]. intros row [<-|[]]. reflexivity. Qed.
Example ex_primes : dual_coboundary [7%nat] [1; 1; 1]%nat 3 2 (dual_get (fun _ => [[5]]) (Some [(7%nat, [1])])) (dual_get (fun _ => idm 6 1) (Some [(7%nat, [1; 2; 3; 4; 5; 6])])) =
  Some [(7%nat, [4; -3; 2; -1; 0; 1])].
Proof.
  rewrite <- ex_step. unfold dual_coboundary. destruct (dual_E 3 [1; 1; 1]%nat); [|reflexivity]. destruct (dual_T 3 2 [1; 1; 1]%nat); [|reflexivity]. cbn [map].
  replace (dual_get (fun _ => [[5]]) (Some [(7%nat, [1])]) 7) with (Some [5]).
  2:{ unfold dual_get, matvec, lsum. cbn. do 2 f_equal. ring. }
  replace (dual_get (fun _ => idm 6 1) (Some [(7%nat, [1; 2; 3; 4; 5; 6])]) 7) with (Some [1; 2; 3; 4; 5; 6]); [reflexivity|].
  unfold dual_get, matvec, lsum. cbn. apply f_equal. repeat (apply (f_equal2 cons); [ring|]). reflexivity.
Qed.
Definition idV2 (v : list R) (x y z : R) : vec := as_vec (fun d => hat2 sp v d x y z).
Lemma id_pulls2 x y z v : pulls2 (idJ x y z) (idV2 v x y z) (fun d => hat2 sp v d x y z).
Proof. intros []; unfold dot, csum, cross, col, ent, mrow, idJ, idV2, as_vec; cbn -[hat2]; ring. Qed.
(* the two elements of TrfExample, with a common trace element *)
Definition ex_Fe (e : nat) := match e with O => hF | _ => hF' end.
Definition ex_Je (e : nat) : ejac := match e with O => tJ | _ => tJ' end.
Definition ex_t0 (s : tside) : nat := match s with tN => 0 | tS => 1 | tW => 2 | tE => 3 | tB => 4 | tF => 5 end.
Definition ex_t1 (s : tside) : nat := match s with tN => 1 | tS => 6 | tW => 7 | tE => 8 | tB => 9 | tF => 10 end.
Definition ex_MAP : list (nat * list nat) := [(0%nat, map ex_t0 all_sides); (1%nat, map ex_t1 all_sides)].
Definition ex_ce (t : nat) : nat := if (t <? 6)%nat then 0%nat else 1%nat.
Definition ex_cs (t : nat) : tside := match t with 0 => tN | 1 | 6 => tS | 2 | 7 => tW | 3 | 8 => tE | 4 | 9 => tB | _ => tF end%nat.
Definition ex_TEW (k : tdeg) (t : nat) : option matrix := Some (trf_mass k sp exq (ex_Je (ex_ce t)) (ex_cs t)).
Example ex_meets' : meets tN hF' hF.
Proof. intros c x y z H. cbn in H. unfold end_pt in H. cbn in H. subst x. destruct c; cbn; [field|reflexivity|reflexivity]. Qed.
