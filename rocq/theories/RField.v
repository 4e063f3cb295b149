(** The real numbers of the standard library as an ordered field of mathcomp, so
    that the models and theorems about the basis functions (BasisModel, C52 and
    C53) apply to them. Not a model of any /repo code. *)
From Coq Require Import Reals ClassicalEpsilon FunctionalExtensionality.
From mathcomp Require Import all_ssreflect all_algebra.
Set Implicit Arguments.
Unset Strict Implicit.
Unset Printing Implicit Defensive.
Import GRing.Theory.
Local Open Scope R_scope.

Definition eqr (x y : R) : bool := if Req_EM_T x y is left _ then true else false.
Lemma eqrP : Equality.axiom eqr.
Proof. by move=> x y; rewrite /eqr; case: Req_EM_T => H; constructor. Qed.
Canonical R_eqMixin := EqMixin eqrP.
Canonical R_eqType := Eval hnf in EqType R R_eqMixin.

Definition inhR : inhabited R := inhabits R0.
Definition pickR (P : pred R) (n : nat) : option R := let x := epsilon inhR P in if P x then Some x else None.
Fact pickR_some P n x : pickR P n = Some x -> P x.
Proof. by rewrite /pickR; case: (boolP (P _)) => // Px [<-]. Qed.
Fact pickR_ex (P : pred R) : (exists x : R, P x) -> exists n, pickR P n.
Proof. by rewrite /pickR; move=> /(epsilon_spec inhR) -> ; exists 0%N. Qed.
Fact pickR_ext (P P' : pred R) : P =1 P' -> pickR P =1 pickR P'.
Proof. by move=> H n; rewrite /pickR (_ : P = P') //; apply: functional_extensionality. Qed.
Definition R_choiceMixin : choiceMixin R := Choice.Mixin pickR_some pickR_ex pickR_ext.
Canonical R_choiceType := Eval hnf in ChoiceType R R_choiceMixin.

Fact RplusA : associative Rplus. Proof. by move=> *; rewrite Rplus_assoc. Qed.
Definition R_zmodMixin := ZmodMixin RplusA Rplus_comm Rplus_0_l Rplus_opp_l.
Canonical R_zmodType := Eval hnf in ZmodType R R_zmodMixin.
Fact RmultA : associative Rmult. Proof. by move=> *; rewrite Rmult_assoc. Qed.
Fact R1_neq_0 : R1 != R0. Proof. by apply/eqP/R1_neq_R0. Qed.
Definition R_ringMixin := RingMixin RmultA Rmult_1_l Rmult_1_r Rmult_plus_distr_r Rmult_plus_distr_l R1_neq_0.
Canonical R_ringType := Eval hnf in RingType R R_ringMixin.
Canonical R_comRingType := Eval hnf in ComRingType R Rmult_comm.

Definition Rinvx (x : R) : R := if x != R0 then Rinv x else x.
Definition unit_R (x : R) : bool := x != R0.
Lemma RmultRinvx : {in unit_R, left_inverse R1 Rinvx Rmult}.
Proof. move=> x; rewrite -topredE /unit_R /Rinvx => /= H. rewrite H Rinv_l //. by apply/eqP. Qed.
Lemma RinvxRmult : {in unit_R, right_inverse R1 Rinvx Rmult}.
Proof. move=> x; rewrite -topredE /unit_R /Rinvx => /= H. rewrite H Rinv_r //. by apply/eqP. Qed.
Lemma intro_unit_R x y : y * x = R1 /\ x * y = R1 -> unit_R x.
Proof.
  case=> /eqP H _. apply/eqP => E. move: H. rewrite E. rewrite Rmult_0_r. by rewrite eq_sym (negbTE R1_neq_0).
Qed.
Lemma Rinvx_out : {in predC unit_R, Rinvx =1 id}.
Proof. by move=> x; rewrite inE /= /Rinvx -if_neg => ->. Qed.
Definition R_unitRingMixin := UnitRingMixin RmultRinvx RinvxRmult intro_unit_R Rinvx_out.
Canonical R_unitRing := Eval hnf in UnitRingType R R_unitRingMixin.
Canonical R_comUnitRingType := Eval hnf in [comUnitRingType of R].
Lemma R_idomainMixin (x y : R) : x * y = R0 -> (x == R0) || (y == R0).
Proof. by move=> /Rmult_integral [] ->; rewrite eqxx ?orbT. Qed.
Canonical R_idomainType := Eval hnf in IdomainType R R_idomainMixin.
Lemma R_field_mixin : GRing.Field.mixin_of [unitRingType of R]. Proof. by []. Qed.
Definition R_fieldIdomainMixin := FieldIdomainMixin R_field_mixin.
Canonical R_field := FieldType R R_field_mixin.

Definition Rleb (x y : R) : bool := if Rle_dec x y is left _ then true else false.
Lemma RlebP x y : reflect (Rle x y) (Rleb x y).
Proof. by rewrite /Rleb; case: Rle_dec => H; constructor. Qed.
Definition Rltb (x y : R) : bool := if Rlt_dec x y is left _ then true else false.
Lemma RltbP x y : reflect (Rlt x y) (Rltb x y).
Proof. by rewrite /Rltb; case: Rlt_dec => H; constructor. Qed.
Lemma Rleb_norm_add x y : Rleb (Rabs (x + y)) (Rabs x + Rabs y).
Proof. by apply/RlebP/Rabs_triang. Qed.
Lemma addr_Rgtb0 x y : Rltb 0 x -> Rltb 0 y -> Rltb 0 (x + y).
Proof. by move=> /RltbP H /RltbP H'; apply/RltbP/Rplus_lt_0_compat. Qed.
Lemma Rnorm0_eq0 x : Rabs x = R0 -> x = R0.
Proof. by move=> H; case: (Req_dec x R0) => // /Rabs_no_R0. Qed.
Lemma Rleb_leVge x y : Rleb 0 x -> Rleb 0 y -> (Rleb x y) || (Rleb y x).
Proof. by move=> _ _; case: (Rle_or_lt x y) => H; apply/orP; [left|right]; apply/RlebP => //; apply: Rlt_le. Qed.
Lemma RnormM : {morph Rabs : x y / x * y}.
Proof. exact: Rabs_mult. Qed.
Lemma Rleb_def x y : (Rleb x y) = (Rabs (y - x) == y - x).
Proof.
  apply/RlebP/eqP => H.
  - by rewrite Rabs_pos_eq //; apply: Rge_le; apply: Rge_minus; apply: Rle_ge.
  - apply: Rminus_le. have := Rabs_pos (y - x). rewrite H => P. apply: Ropp_le_cancel. rewrite Ropp_0 Ropp_minus_distr. exact: P.
Qed.
Lemma Rltb_def x y : (Rltb x y) = (y != x) && (Rleb x y).
Proof.
  apply/RltbP/andP => [H|[/eqP N /RlebP L]].
  - split; [apply/eqP => E|by apply/RlebP/Rlt_le]. move: H. rewrite E. exact: Rlt_irrefl.
  - case: L => // E. by case: N.
Qed.
Definition R_numMixin := NumMixin Rleb_norm_add addr_Rgtb0 Rnorm0_eq0 Rleb_leVge RnormM Rleb_def Rltb_def.
Canonical R_porderType := POrderType ring_display R R_numMixin.
Canonical R_numDomainType := NumDomainType R R_numMixin.
Canonical R_normedZmodType := NormedZmodType R R R_numMixin.
Canonical R_numFieldType := Eval hnf in [numFieldType of R].
Lemma Rleb_total : totalPOrderMixin R_porderType.
Proof. move=> x y. by case: (Rle_or_lt x y) => H; apply/orP; [left|right]; apply/RlebP => //; apply: Rlt_le. Qed.
Canonical R_latticeType := LatticeType R Rleb_total.
Canonical R_distrLatticeType := DistrLatticeType R Rleb_total.
Canonical R_orderType := OrderType R Rleb_total.
Canonical R_realDomainType := Eval hnf in [realDomainType of R].
Canonical R_realFieldType := Eval hnf in [realFieldType of R].
