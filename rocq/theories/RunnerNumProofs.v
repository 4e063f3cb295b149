(** Proofs about RunnerNumModel. *)
From Coq Require Import Reals ZArith Lia Lra.
From Flocq Require Import Core Relative.
From Verif Require Import RunnerNumModel RunnerNumSpec.
Local Open Scope R_scope.

Notation fexp := (FLT_exp (-1074) 53).
Lemma prec53 : Prec_gt_0 53. Proof. reflexivity. Qed.
Local Existing Instance prec53.
Lemma double_format x : is_double x -> generic_format radix2 fexp x.
Proof.
  intros (m & e & E & M & G). apply generic_format_FLT. exists (Float radix2 m e); [|exact M|exact G]. unfold F2R. cbn [Fnum Fexp]. rewrite bpow_powerRZ. exact E.
Qed.
Lemma format_double x : generic_format radix2 fexp x -> is_double x.
Proof.
  intros G. apply FLT_format_generic in G; [|exact prec53]. destruct G as [f E M X]. exists (Fnum f), (Fexp f). split; [|split; assumption]. rewrite E. unfold F2R. rewrite bpow_powerRZ. reflexivity.
Qed.
Lemma bpow53 : bpow radix2 (-53) = / IZR (2 ^ 53). Proof. reflexivity. Qed.
Lemma bpow17 : bpow ten (- (17) + 1) = / IZR (10 ^ 16). Proof. reflexivity. Qed.
Lemma decimal_pos x : 0 < x -> generic_format radix2 fexp x -> double (decimal x) = x.
Proof.
  intros P F. assert (E := relative_error_N_FLX ten 17 ltac:(lia) (fun x => negb (Z.even x)) x). fold (decimal x) in E. rewrite bpow17, (Rabs_pos_eq x) in E by lra. apply Rabs_le_inv in E. destruct E as (E1 & E2).
  assert (T : / IZR (10 ^ 16) < / IZR (2 ^ 53 + 1)) by (apply Rinv_lt_contravar; [apply Rmult_lt_0_compat; apply IZR_lt; reflexivity|apply IZR_lt; reflexivity]).
  set (t := / IZR (10 ^ 16)) in *. set (s := / IZR (2 ^ 53 + 1)) in *.
  assert (S0 : 0 < s) by (apply Rinv_0_lt_compat, IZR_lt; reflexivity).
  assert (S1 : s * (1 + bpow radix2 (-53)) = bpow radix2 (-53)).
  { rewrite bpow53. unfold s. rewrite plus_IZR. assert (A : IZR (2 ^ 53) <> 0) by (apply IZR_neq; discriminate). assert (B : IZR (2 ^ 53) + 1 <> 0) by (rewrite <- plus_IZR; apply IZR_neq; discriminate). field. split; assumption. }
  assert (S2 : s < bpow radix2 (-53)) by (rewrite bpow53; apply Rinv_lt_contravar; [apply Rmult_lt_0_compat; apply IZR_lt; reflexivity|apply IZR_lt; reflexivity]).
  apply Rle_antisym.
  - apply round_N_le_midp; [apply FLT_exp_valid; exact prec53|exact F|]. rewrite succ_eq_pos by lra. assert (U := ulp_FLT_gt radix2 (-1074) 53 x). change (- (53))%Z with (-53)%Z in U. rewrite Rabs_pos_eq in U by lra.
    assert (t * x < bpow radix2 (-53) * x) by (apply Rmult_lt_compat_r; lra). lra.
  - apply round_N_ge_midp; [apply FLT_exp_valid; exact prec53|exact F|]. assert (Y := pred_plus_ulp radix2 fexp x P F). set (y := pred radix2 fexp x) in *. assert (Y0 : 0 <= y) by (apply pred_ge_0; [apply FLT_exp_valid; exact prec53|exact P|exact F]).
    assert (U := ulp_FLT_gt radix2 (-1074) 53 y). change (- (53))%Z with (-53)%Z in U. rewrite Rabs_pos_eq in U by lra. set (u := ulp radix2 fexp y) in *. set (b := bpow radix2 (-53)) in *.
    assert (X : s * x < u).
    { assert (H : x * b < u * (1 + b)) by (rewrite <- Y; lra). assert (B0 : 0 < b) by apply bpow_gt_0.
      assert (H' : s * x * (1 + b) = x * b) by (transitivity (x * (s * (1 + b))); [ring|rewrite S1; reflexivity]). apply Rmult_lt_reg_r with (1 + b); lra. }
    assert (t * x < s * x) by (apply Rmult_lt_compat_r; lra). lra.
Qed.
Lemma decimal_ok x : is_double x -> reread_out x = x.
Proof.
  intros D. assert (F := double_format x D). unfold reread_out. destruct (Rtotal_order x 0) as [N|[->|P]].
  - assert (E := decimal_pos (- x) ltac:(lra) (generic_format_opp _ _ _ F)). unfold double, decimal in *. rewrite !round_NE_opp in E. lra.
  - unfold double, decimal. rewrite !round_0 by apply valid_rnd_N. reflexivity.
  - exact (decimal_pos x P F).
Qed.
Lemma reread_ok x : is_double x -> reread x = x.
Proof.
  intros D. unfold reread, written. destruct (Req_EM_T x (IZR (Zfloor x))); [|apply decimal_ok; exact D]. unfold double. apply round_generic; [apply valid_rnd_N|]. apply double_format. exact D.
Qed.
Lemma int_double z : (Z.abs z <= 2 ^ 53)%Z -> is_double (IZR z).
Proof.
  intros H. destruct (Z.eq_dec (Z.abs z) (2 ^ 53)) as [E|E].
  - exists (z / 2)%Z, 1%Z. split; [|split; [|lia]].
    + assert (X : z = (z / 2 * 2)%Z) by (destruct (Z.abs_eq_or_opp z) as [A|A]; rewrite A in E; [rewrite E|replace z with (- 2 ^ 53)%Z by lia]; reflexivity). rewrite X at 1. rewrite mult_IZR. cbn [powerRZ]. change (Pos.to_nat 1) with 1%nat. rewrite pow_1. reflexivity.
    + destruct (Z.abs_eq_or_opp z) as [A|A]; rewrite A in E; [rewrite E|replace z with (- 2 ^ 53)%Z by lia]; reflexivity.
  - exists z, 0%Z. split; [cbn; ring|lia].
Qed.
Lemma int_ok z : (Z.abs z <= 2 ^ 53)%Z -> reread (IZR z) = IZR z.
Proof. intros H. apply reread_ok, int_double, H. Qed.
Lemma big_int_lost : reread (IZR (2 ^ 53 + 1)) <> IZR (2 ^ 53 + 1).
Proof.
  intros E. assert (D : is_double (IZR (2 ^ 53 + 1))).
  { apply format_double. rewrite <- E. unfold reread, double. apply generic_format_round; [apply FLT_exp_valid; exact prec53|apply valid_rnd_N]. }
  destruct D as (m & e & X & M & _). assert (Two : forall k, (0 <= k)%Z -> powerRZ 2 k = IZR (2 ^ k)).
  { intros k K. rewrite <- (Z2Nat.id k K). rewrite <- pow_IZR, <- pow_powerRZ. reflexivity. }
  destruct (Z.le_gt_cases 1 e) as [L|L].
  - replace e with (1 + (e - 1))%Z in X by lia. rewrite powerRZ_add, (Two (e - 1)%Z) in X by (lra || lia). change (powerRZ 2 1) with (2 * 1) in X. rewrite Rmult_1_r, <- !mult_IZR in X. apply eq_IZR in X.
    assert (Z := f_equal Z.even X). rewrite !Z.even_mul in Z. change (Z.even 2) with true in Z. cbn [orb] in Z. rewrite Bool.orb_true_r in Z. discriminate Z.
  - assert (Y : IZR (2 ^ 53 + 1) * IZR (2 ^ (- e)) = IZR m).
    { rewrite <- (Two (- e)%Z) by lia. rewrite X, Rmult_assoc, <- powerRZ_add by lra. replace (e + - e)%Z with 0%Z by lia. apply Rmult_1_r. }
    rewrite <- mult_IZR in Y. apply eq_IZR in Y. assert (K : (1 <= 2 ^ (- e))%Z) by (assert (0 < 2 ^ (- e))%Z by (apply Z.pow_pos_nonneg; lia); lia).
    generalize dependent (2 ^ (- e))%Z. intros k Y K. change (2 ^ 53)%Z with 9007199254740992%Z in *. nia.
Qed.
