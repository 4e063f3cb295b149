(* A curved element and fields for which the midpoint rule is exact. *)
From Coq Require Import Reals List Lia Lra Arith ZArith.
From Verif Require Import TfiModel TfiSpec CtModel CtSpec RingSum SpaceModel SpaceSpec DiscModel DiscSpec DiscProofs DiscProofs2 DiscProofs3.
Import ListNotations.
Open Scope R_scope.

Definition mid : list R * list R := ([0], [2]).
Definition exg : Grid := mkGrid [-1; 0; 1] [-1; 1] [-1; 1] mid mid mid.
Definition exF (c : coord) (x y z : R) : R := match c with cX => x + x * y | cY => y | cZ => z end.
Definition exJ (x y z : R) : mat3 := ((1 + y, x, 0), (0, 1, 0), (0, 0, 1)).
Definition exH (c i j : coord) (x y z : R) : R :=
  match c, i, j with cX, cX, cY => 1 | cX, cY, cX => 1 | _, _, _ => 0 end.

Lemma lim_quad a b d x : derivable_pt_lim (fun s => a + b * s + d * s * s) x (b + 2 * d * x).
Proof.
  replace (b + 2 * d * x) with (0 + b * 1 + (d * 1 * x + d * x * 1)) by ring.
  apply (derivable_pt_lim_plus (fun s => a + b * s) (fun s => d * s * s)).
  - apply (derivable_pt_lim_plus (fun s => a) (fun s => b * s)); [apply derivable_pt_lim_const|].
    apply (derivable_pt_lim_scal (fun s => s)). apply derivable_pt_lim_id.
  - apply (derivable_pt_lim_mult (fun s => d * s) (fun s => s)); [|apply derivable_pt_lim_id].
    apply (derivable_pt_lim_scal (fun s => s)). apply derivable_pt_lim_id.
Qed.
Lemma quad_lim h a b d x l : (forall s, h s = a + b * s + d * s * s) -> l = b + 2 * d * x -> derivable_pt_lim h x l.
Proof. intros E ->. apply TfiProofs.lim_ext' with (2 := lim_quad a b d x). intros. symmetry. apply E. Qed.
Lemma mid_exact n h a b d : (forall s, h s = a + b * s + d * s * s) -> integrates n mid h.
Proof.
  intros E h' D i _. unfold factor_rule, mid, rsum. cbn [fst snd combine map fold_right].
  set (m := (1 - 0) / 2 * nth i n 0 + (1 + 0) / 2 * nth (S i) n 0).
  rewrite (uniqueness_limite h m (h' m) (b + 2 * d * m) (D m)).
  - rewrite !E. unfold m. field.
  - eapply quad_lim; [exact E|reflexivity].
Qed.
Example ex_jacobian : jacobian_of exF exJ.
Proof.
  intros c x y z. destruct c; cbn; repeat split;
    [apply (quad_lim _ 0 (1 + y) 0)|apply (quad_lim _ x x 0)|apply (quad_lim _ (x + x * y) 0 0)
    |apply (quad_lim _ y 0 0)|apply (quad_lim _ 0 1 0)|apply (quad_lim _ y 0 0)
    |apply (quad_lim _ z 0 0)|apply (quad_lim _ z 0 0)|apply (quad_lim _ 0 1 0)]; intros; ring.
Qed.
Example ex_second : second_derivs exJ exH.
Proof.
  split; [|intros [] [] [] x y z; reflexivity].
  intros c i x y z. destruct c, i; cbn; repeat split;
    first [apply derivable_pt_lim_const|apply derivable_pt_lim_id
          |apply (quad_lim _ 1 1 0); [intros; ring|ring]].
Qed.
Lemma grad_coord c x y z : has_grad (fun a b d => TfiModel.get (a, b, d) c) x y z (delta c cX, delta c cY, delta c cZ).
Proof.
  intros k t d _ _ _ Hd. specialize (Hd c). unfold dot, csum. destruct c; cbn [TfiModel.get delta];
    [replace (_ + _ + _) with (TfiModel.get d cX) by ring|replace (_ + _ + _) with (TfiModel.get d cY) by ring
    |replace (_ + _ + _) with (TfiModel.get d cZ) by ring]; exact Hd.
Qed.
Lemma grad_const a x y z : has_grad (fun _ _ _ => a) x y z (0, 0, 0).
Proof. intros k t d _ _ _ _. unfold dot, csum. cbn [TfiModel.get]. replace (_ + _ + _) with 0 by ring. apply derivable_pt_lim_const. Qed.
Lemma grad_mult f h x y z f0 f1 f2 h0 h1 h2 : has_grad f x y z (f0, f1, f2) -> has_grad h x y z (h0, h1, h2) ->
  has_grad (fun a b d => f a b d * h a b d) x y z
    (f0 * h x y z + f x y z * h0, f1 * h x y z + f x y z * h1, f2 * h x y z + f x y z * h2).
Proof.
  intros Hf Hh k t d E0 E1 E2 Hd. specialize (Hf k t d E0 E1 E2 Hd). specialize (Hh k t d E0 E1 E2 Hd).
  assert (M := derivable_pt_lim_mult _ _ _ _ _ Hf Hh). cbv beta in M. rewrite E0, E1, E2 in M. unfold mult_fct in M.
  replace (dot _ _) with (dot (f0, f1, f2) d * h x y z + f x y z * dot (h0, h1, h2) d); [exact M|].
  unfold dot, csum. cbn [TfiModel.get]. ring.
Qed.
Lemma grad_eq f x y z G G' : has_grad f x y z G -> G = G' -> has_grad f x y z G'.
Proof. intros H <-. exact H. Qed.

(* f = X Z and its gradient *)
Definition exf (x y z : R) : R := x * z.
Definition exG (c : coord) (x y z : R) : R := match c with cX => z | cY => 0 | cZ => x end.
Example ex_grad : forall x y z, has_grad exf x y z (value exG x y z).
Proof.
  intros. eapply grad_eq; [apply (grad_mult _ _ _ _ _ _ _ _ _ _ _ (grad_coord cX x y z) (grad_coord cZ x y z))|].
  unfold value, exG. cbn. repeat f_equal; ring.
Qed.
Example ex_along_f : forall c, integrates_along exg c (through exf exF).
Proof.
  intros [] a b; cbn; [apply (mid_exact _ _ 0 (b + a * b) 0)|apply (mid_exact _ _ (a * b) (a * b) 0)|apply (mid_exact _ _ 0 (a + a * b) 0)];
    intros; unfold through, exf, exF; ring.
Qed.
(* v = (-Z, 0, X) with curl (0, -2, 0) *)
Definition exv (c : coord) (x y z : R) : R := match c with cX => -1 * z | cY => 0 | cZ => x end.
Definition exD (i j : coord) (x y z : R) : R := match i, j with cX, cZ => -1 | cZ, cX => 1 | _, _ => 0 end.
Example ex_deriv : deriv_of exv exD.
Proof.
  intros [] x y z; cbn [exv exD].
  - eapply grad_eq; [apply (grad_mult _ _ _ _ _ _ _ _ _ _ _ (grad_const (-1) x y z) (grad_coord cZ x y z))|]. cbn. repeat f_equal; ring.
  - apply grad_const.
  - apply (grad_coord cX).
Qed.
Example ex_curl : forall x y z, curl_of (fun i j => exD i j x y z) = (0, -2, 0).
Proof. intros. unfold curl_of, exD. repeat f_equal; ring. Qed.
Example ex_along_v : forall c a, c <> a -> integrates_along exg a (pull1 exF exJ exv c).
Proof.
  intros c a H k m. destruct a, c; try (exfalso; apply H; reflexivity); cbn;
  [apply (mid_exact _ _ 0 (- m) 0)|apply (mid_exact _ _ 0 (1 + k) 0)|apply (mid_exact _ _ (- m) (- m) 0)
  |apply (mid_exact _ _ k k 0)|apply (mid_exact _ _ 0 (- (1 + m)) 0)|apply (mid_exact _ _ 0 (- k) 0)];
    intros; unfold pull1, dot, csum, col, ent, mrow, through, value, exJ, exF, exv; cbn [TfiModel.get]; ring.
Qed.
(* u = (X, 0, Z) with divergence 2 *)
Definition exu (c : coord) (x y z : R) : R := match c with cX => x | cY => 0 | cZ => z end.
Definition exDu (i j : coord) (x y z : R) : R := match i, j with cX, cX => 1 | cZ, cZ => 1 | _, _ => 0 end.
Example ex_deriv_u : deriv_of exu exDu.
Proof.
  intros [] x y z; cbn [exu exDu].
  - apply (grad_coord cX).
  - apply grad_const.
  - apply (grad_coord cZ).
Qed.
Example ex_along_u : forall c, integrates_along exg c (pull2 exF exJ exu c).
Proof.
  intros c k m. destruct c; cbn;
  [apply (mid_exact _ _ 0 (1 + k) 0)|apply (mid_exact _ _ 0 0 0)|apply (mid_exact _ _ 0 (1 + m) 0)];
    intros; unfold pull2, dot, csum, cross, col, ent, mrow, through, value, exJ, exF, exu, next; cbn [TfiModel.get]; ring.
Qed.
