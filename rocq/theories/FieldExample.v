(** A concrete scalar and a concrete vector. *)
From Coq Require Import Reals List Lra.
From Verif Require Import FieldModel FieldSpec FieldProofs.
Import ListNotations.
Open Scope R_scope.

(** [x^2 y + z t], and its derivatives along x. *)
Definition exs : field3 := fun t x y z => x ^ 2 * y + z * t.
Definition exs_x : field3 := fun t x y z => 2 * x * y.
Definition exS : scalar3 := mk3 Function 4 exs.
(** A bound method as second component, a plain function elsewhere. *)
Definition exV : vector3 :=
  vec3 (mk3 Function 4 (fun t x y z => y * z))
       (mk3 Method 5 (fun t x y z => t * x))
       (mk3 Function 4 (fun t x y z => x ^ 2)).
Definition exU : vector3 :=
  vec3 (mk3 Function 4 (fun t x y z => 1))
       (mk3 Function 4 (fun t x y z => x))
       (mk3 Function 4 (fun t x y z => t)).

Definition ex2 : scalar2 := mk2 Function 3 (fun t x y => x ^ 2 * y + t).
Definition exv2 : vector2 :=
  vec2 (mk2 Function 3 (fun t x y => y * t)) (instance2 (fun t x y => x ^ 2)).

(** The sine along x, and its derivatives. *)
Definition exsin : field3 := fun t x y z => sin x.
Definition excos : field3 := fun t x y z => cos x.
Definition exmsin : field3 := fun t x y z => - sin x.
Definition exmcos : field3 := fun t x y z => - cos x.

Lemma exsin_partial :
  is_partial3 AX exsin excos /\ is_partial3 AX excos exmsin /\
  is_partial3 AX exmsin exmcos /\
  (forall t x y z, Rabs (exmcos t x y z) <= 1).
Proof.
  repeat split.
  - intros t x y z. apply derivable_pt_lim_sin.
  - intros t x y z. apply derivable_pt_lim_cos.
  - intros t x y z. apply (derivable_pt_lim_opp sin).
    apply derivable_pt_lim_sin.
  - intros t x y z. unfold exmcos. rewrite Rabs_Ropp. apply Rabs_le.
    assert (H := COS_bound x). lra.
Qed.

Definition exsin2 : field2 := fun t x y => sin y.
Definition excos2 : field2 := fun t x y => cos y.
Definition exmsin2 : field2 := fun t x y => - sin y.
Definition exmcos2 : field2 := fun t x y => - cos y.

Lemma exsin2_partial :
  is_partial2 BY exsin2 excos2 /\ is_partial2 BY excos2 exmsin2 /\
  is_partial2 BY exmsin2 exmcos2 /\
  (forall t x y, Rabs (exmcos2 t x y) <= 1).
Proof.
  repeat split.
  - intros t x y. apply derivable_pt_lim_sin.
  - intros t x y. apply derivable_pt_lim_cos.
  - intros t x y. apply (derivable_pt_lim_opp sin).
    apply derivable_pt_lim_sin.
  - intros t x y. unfold exmcos2. rewrite Rabs_Ropp. apply Rabs_le.
    assert (H := COS_bound y). lra.
Qed.
