(* A curved 2D element and fields for which the midpoint rule is exact. *)
From Coq Require Import Reals List Lra Arith.
From Verif Require Import RingSum SpaceModel SpaceSpec DiscModel DiscSpec DiscExample Disc2Model Disc2Spec.
Import ListNotations.
Open Scope R_scope.

(* the two point rule with nodes -1/2, 1/2 for the 1-forms, the midpoint rule
   for the 2-forms *)
Definition two : list R * list R := ([- (1 / 2); 1 / 2], [1; 1]).
Definition exF2 : (R -> R -> R) * (R -> R -> R) := (fun x y => x + x * y, fun x y => 2 * y).
Definition exJ2 (x y : R) : (R * R) * (R * R) := ((1 + y, x), (0, 2)).
Definition exM2 (x y : R) : R * R := (1, 0).
Definition exN0 : list R := [-1; 0; 1].
Definition exN1 : list R := [-1; 1].

Lemma two_mid n h a b : (forall s, h s = a + b * s) -> agree n two mid h.
Proof. intros E i _. unfold factor_rule, two, mid, rsum. cbn [fst snd combine map fold_right]. rewrite !E. field. Qed.
Lemma two_exact n h a b : (forall s, h s = a + b * s) -> integrates n two h.
Proof.
  intros E h' D i _. unfold factor_rule, two, rsum. cbn [fst snd combine map fold_right].
  assert (forall m, h' m = b) as Hb.
  { intros m. apply (uniqueness_limite h m _ _ (D m)). apply (quad_lim _ a b 0); [intros; rewrite E; ring|ring]. }
  rewrite !Hb, !E. field.
Qed.
Example ex2_jacobian : jacobian2_of exF2 exJ2.
Proof.
  intros x y. cbn. repeat split;
    [apply (quad_lim _ 0 (1 + y) 0)|apply (quad_lim _ x x 0)|apply (quad_lim _ (2 * y) 0 0)|apply (quad_lim _ 0 2 0)]; intros; ring.
Qed.
Example ex2_mixed : mixed exJ2 exM2.
Proof.
  intros x y. cbn. repeat split;
    [apply (quad_lim _ 1 1 0)|apply (quad_lim _ 0 1 0)|apply (quad_lim _ 0 0 0)|apply (quad_lim _ 2 0 0)]; intros; ring.
Qed.
Lemma grad2_coord (b : bool) x y : has_grad2 (fun s t => if b then t else s) x y (if b then (0, 1) else (1, 0)).
Proof.
  intros k t d _ _ Hd. specialize (Hd b). unfold dot2. destruct b; cbn [fst snd comp] in *;
    [replace (0 * fst d + 1 * snd d) with (snd d) by ring|replace (1 * fst d + 0 * snd d) with (fst d) by ring]; exact Hd.
Qed.
Lemma grad2_scale f c x y g : has_grad2 f x y g -> has_grad2 (fun s t => c * f s t) x y (c * fst g, c * snd g).
Proof.
  intros H k t d E0 E1 Hd. specialize (H k t d E0 E1 Hd).
  replace (dot2 _ d) with (c * dot2 g d) by (unfold dot2; cbn [fst snd]; ring).
  exact (derivable_pt_lim_scal _ c t _ H).
Qed.
(* f = 3 X, gradient (3, 0), rotated gradient (0, -3) *)
Definition exf2 (x y : R) : R := 3 * x.
Definition exG2 : (R -> R -> R) * (R -> R -> R) := (fun _ _ => 3, fun _ _ => 0).
Definition exR2 : (R -> R -> R) * (R -> R -> R) := (fun _ _ => 0, fun _ _ => -3).
Lemma grad2_eq f x y (g g' : R * R) : has_grad2 f x y g -> g = g' -> has_grad2 f x y g'.
Proof. intros H <-. exact H. Qed.
Example ex2_grad x y : has_grad2 exf2 x y (value2 exG2 x y).
Proof. eapply grad2_eq; [apply (grad2_scale _ 3 _ _ _ (grad2_coord false x y))|]. cbn. unfold value2, exG2. cbn. f_equal; ring. Qed.
Example ex2_rot x y : has_grad2 exf2 x y (- snd (value2 exR2 x y), fst (value2 exR2 x y)).
Proof. eapply grad2_eq; [apply (grad2_scale _ 3 _ _ _ (grad2_coord false x y))|]. cbn. unfold value2, exR2. cbn. f_equal; ring. Qed.
Example ex2_along_f (b : bool) : integrates_along2 (mkGrid2 exN0 exN1 two two) b (through2 exf2 exF2).
Proof.
  intros a. destruct b; cbn; [apply (two_exact _ _ (3 * a) (3 * a))|apply (two_exact _ _ 0 (3 * (1 + a)))];
    intros; unfold through2, exf2, exF2; cbn; ring.
Qed.
(* v = (-Y, 0) with rotation 1, u = (0, Y) with divergence 1 *)
Definition exv2 : (R -> R -> R) * (R -> R -> R) := (fun x y => - y, fun x y => 0).
Definition exDv2 (x y : R) : (R * R) * (R * R) := ((0, -1), (0, 0)).
Definition exu2 : (R -> R -> R) * (R -> R -> R) := (fun x y => 0, fun x y => y).
Definition exDu2 (x y : R) : (R * R) * (R * R) := ((0, 0), (0, 1)).
Lemma grad2_zero x y : has_grad2 (fun _ _ => 0) x y (0, 0).
Proof. intros k t d _ _ _. unfold dot2. cbn. replace (_ + _) with 0 by ring. apply derivable_pt_lim_const. Qed.
Lemma grad2_ext f f' x y g : (forall s t, f s t = f' s t) -> has_grad2 f x y g -> has_grad2 f' x y g.
Proof. intros E H k t d E0 E1 Hd. eapply TfiProofs.lim_ext'; [|apply (H k t d E0 E1 Hd)]. intros s. apply E. Qed.
Example ex2_deriv_v : deriv2_of exv2 exDv2.
Proof.
  intros x y. split; cbn; [|apply grad2_zero].
  eapply grad2_ext; [|eapply grad2_eq; [apply (grad2_scale _ (-1) _ _ _ (grad2_coord true x y))|]]; [intros; cbn; ring|cbn; f_equal; ring].
Qed.
Example ex2_deriv_u : deriv2_of exu2 exDu2.
Proof. intros x y. split; cbn; [apply grad2_zero|apply (grad2_coord true)]. Qed.
Example ex2_circ (b : bool) : integrates_along2 (mkGrid2 exN0 exN1 mid mid) (negb b) (circ exF2 exJ2 exv2 b) /\
  agree_along2 exN0 exN1 two two mid mid b (circ exF2 exJ2 exv2 b).
Proof.
  split; intros a; destruct b; cbn;
    [apply (mid_exact _ _ 0 (-2 * a) 0)|apply (mid_exact _ _ 0 (-2) (-2))|apply (two_mid _ _ 0 (-2 * a))|apply (two_mid _ _ (-2 * a * (1 + a)) 0)];
    intros; unfold circ, dot2, mcol, comp, through2, value2, exF2, exJ2, exv2; cbn; ring.
Qed.
Example ex2_flux (b : bool) : integrates_along2 (mkGrid2 exN0 exN1 mid mid) (negb b) (flux exF2 exJ2 exu2 b) /\
  agree_along2 exN0 exN1 two two mid mid b (flux exF2 exJ2 exu2 b).
Proof.
  split; intros a; destruct b; cbn;
    [apply (mid_exact _ _ 0 (-2 * a) 0)|apply (mid_exact _ _ 0 (-2) (-2))|apply (two_mid _ _ 0 (-2 * a))|apply (two_mid _ _ (-2 * a * (1 + a)) 0)];
    intros; unfold flux, cross2, mcol, comp, through2, value2, exF2, exJ2, exu2; cbn; ring.
Qed.
