(** Newton iterations with exactly solved linear systems. *)
From Coq Require Import List Arith ZArith QArith Bool Lia Permutation Ring.
From Verif Require Import Prelude RingSum StopModel StopSpec StopProofs MdmModel MdmSpec MdmProofs MdmProofs2 MdmProofs3 MdmProofs4 MdmProofs5.
Import ListNotations.
Local Open Scope nat_scope.

Section P.
  Variable K : CRing.
  Add Ring Kring : (Rth K).
  Variable nb : form -> nat.
  Variables (els : list nat) (gt gu : nat -> nat -> nat -> nat).
  Local Open Scope ring_s.
  Notation FF := (F K nb els gt gu).
  Notation NN := (N K nb els gt gu).
  Notation zero := (fun _ _ : nat => @r0 K).

  Lemma F_ext (s : nls K) x y R : usable K s -> trilinear K s -> (forall i, y i = x i) -> FF s y R = FF s x R.
  Proof.
    intros Us Tr H. unfold F. apply gather_ext. intros i e r Hi _.
    rewrite (residual_quadratic K nb s (locals K gu s x) (locals K gu s x) (locals K gu s y) 0 i e r Us Tr); [ring| |exact Hi].
    repeat split; try apply locals_length. intros j e' c Hj. rewrite !locals_nth by exact Hj. rewrite H. ring.
  Qed.
  Lemma N_zero (s : nls K) h R : usable K s -> trilinear K s -> (forall i, h i = 0) -> NN s h R = 0.
  Proof.
    intros Us Tr H. unfold N, gather_rows. apply bsum_0. intros e _. apply bsum_0. intros i Hi. apply in_seq in Hi. apply bsum_0. intros r _.
    destruct (gt i e r =? R)%nat; [|reflexivity]. unfold nonlinear_part. apply bsum_0. intros m I.
    pose proof Us as (Ok & Du & _). destruct (nls_ok_iff K s Ok) as [Nt Hm]. destruct (Hm i m ltac:(lia) I) as (Dc & It & Hc).
    destruct (three_ok (cor K m) _ Dc (Tr i m I) It) as (a & b & T). pose proof T as (_ & Dta & _).
    assert (In a (cor K m)) as Ia by (apply (three_In _ _ _ _ a T); auto).
    rewrite <- (mform_upd_self K nb m e _ a), (mform_expand K nb m e _ a _ Dc Ia). apply bsum_0. intros c _.
    rewrite upd_other by auto. destruct (Hc a Ia) as [E|J]; [congruence|]. apply In_nth with (d := 0%nat) in J.
    destruct J as (j & Hj & <-). rewrite at_unknown, locals_nth, H by (try apply locals_length; assumption). ring.
  Qed.
  Lemma mat_vec_unit n R (v : nat -> K) (A : nat -> nat -> K) : (R < n)%nat ->
    (forall C, A R C = if (R =? C)%nat then 1 else 0) -> mat_vec K n A v R = v R.
  Proof.
    intros H HA. unfold mat_vec. rewrite (bsum_only K (seq 0 n) R); [|apply seq_NoDup|apply in_seq; lia|].
    - rewrite HA, Nat.eqb_refl. ring.
    - intros C _ D. rewrite HA, (proj2 (Nat.eqb_neq R C)) by congruence. ring.
  Qed.

  (** one exact step *)
  Lemma exact_step (s : nls K) n corr fixed x R : usable K s -> trilinear K s -> numbering K nb els gu s n ->
    exact_solver K nb els gt gu s n corr -> (R < n)%nat ->
    (In R fixed -> corr x fixed R = 0) /\
    (~ In R fixed -> FF s (vadd K x (corr x fixed)) R = NN s (corr x fixed) R).
  Proof.
    intros Us Tr Hn Hx HR. destruct (newton_system_ok K nb els gt gu s fixed x n Us Tr Hn) as (A & b & J & E & H1 & H2 & H3 & H4 & H5).
    pose proof (Hx x fixed A b E R HR) as Hs. split.
    - intros I. rewrite (mat_vec_unit n R (corr x fixed) A HR) in Hs by (intros C; apply H1, I). rewrite Hs. apply H2, I.
    - intros I. assert (mat_vec K n A (corr x fixed) R = mat_vec K n J (corr x fixed) R) as EA.
      { unfold mat_vec. apply bsum_ext. intros C _. rewrite H3 by exact I. reflexivity. }
      rewrite EA, (H4 R I) in Hs.
      rewrite (F_ext s (along K x (corr x fixed) 1) (vadd K x (corr x fixed)) R Us Tr)
        by (intros i; unfold vadd, along; ring).
      rewrite H5, Hs. ring.
  Qed.

  Section Run.
    Variables (s : nls K) (n : nat) (corr : vec K -> list nat -> vec K) (norm : vec K -> fl).
    Hypotheses (Us : usable K s) (Tr : trilinear K s) (Hn : numbering K nb els gu s n)
      (Hx : exact_solver K nb els gt gu s n corr).
    Variables (cs : list (cust K)) (x0 : vec K).
    Notation it := (iterate K corr (no_eval K cs) x0 (guesses K cs x0)).
    Notation dx := (step_of K corr (no_eval K cs) x0 (guesses K cs x0)).

    (** the vector the system of step k+1 is built at, if it is the k-th iterate *)
    Lemma iterate_residual k R : (1 <= k)%nat \/ (forall i, guesses K cs x0 i = x0 i) ->
      (R < n)%nat -> ~ In R (no_eval K cs) -> FF s (it (S k)) R = NN s (dx k) R.
    Proof.
      intros Hk HR NR. destruct k as [|k].
      - destruct Hk as [Hk|Hk]; [lia|]. cbn [iterate]. unfold step_of.
        destruct (exact_step s n corr (no_eval K cs) x0 R Us Tr Hn Hx HR) as [_ E]. rewrite <- (E NR).
        apply F_ext; [exact Us|exact Tr|]. intros i. unfold vadd. rewrite Hk. reflexivity.
      - destruct (exact_step s n corr (no_eval K cs) (it (S k)) R Us Tr Hn Hx HR) as [_ E]. exact (E NR).
    Qed.
    Lemma iterate_fixed_dofs k R : (R < n)%nat -> In R (no_eval K cs) -> it k R = guesses K cs x0 R.
    Proof.
      intros HR IR. induction k as [|k IH]; [reflexivity|]. cbn [iterate]. unfold vadd. rewrite IH.
      assert (forall x, corr x (no_eval K cs) R = 0) as ->; [|ring].
      intros x. apply (exact_step s n corr (no_eval K cs) x R Us Tr Hn Hx HR), IR.
    Qed.

    Lemma newton_result atol mx fuel x info beta i : (1 <= mx)%Z -> (Z.to_nat mx <= fuel)%nat ->
      newton_raphson K corr norm fuel cs atol (MInt mx) x0 = NDone K x info beta i -> x = it i /\ (1 <= i)%nat.
    Proof.
      intros H1 H2 E. destruct (newton_ok K corr norm cs x0 mx atol fuel H1 H2) as (i' & info' & E' & B & _).
      rewrite E' in E. injection E as <- _ _ <-. split; [reflexivity|lia].
    Qed.
    Lemma newton_residual atol mx fuel x info beta i : (1 <= mx)%Z -> (Z.to_nat mx <= fuel)%nat ->
      newton_raphson K corr norm fuel cs atol (MInt mx) x0 = NDone K x info beta i ->
      (2 <= i)%nat \/ (forall j, guesses K cs x0 j = x0 j) ->
      forall R, (R < n)%nat -> ~ In R (no_eval K cs) -> FF s x R = NN s (dx (i - 1)) R.
    Proof.
      intros H1 H2 E Hg R HR NR. destruct (newton_result atol mx fuel x info beta i H1 H2 E) as [-> Hi].
      destruct i as [|k]; [lia|]. replace (S k - 1)%nat with k by lia. apply iterate_residual; [|exact HR|exact NR].
      destruct Hg as [Hg|Hg]; [left; lia|right; exact Hg].
    Qed.
    Lemma newton_converged atol mx fuel x info beta i : (1 <= mx)%Z -> (Z.to_nat mx <= fuel)%nat ->
      newton_raphson K corr norm fuel cs atol (MInt mx) x0 = NDone K x info beta i ->
      (2 <= i)%nat \/ (forall j, guesses K cs x0 j = x0 j) -> (forall j, dx (i - 1) j = 0) ->
      forall R, (R < n)%nat -> ~ In R (no_eval K cs) -> FF s x R = 0.
    Proof.
      intros H1 H2 E Hg Hd R HR NR. rewrite (newton_residual atol mx fuel x info beta i H1 H2 E Hg R HR NR).
      apply N_zero; assumption.
    Qed.
    Lemma newton_linear atol mx fuel x info beta i : (1 <= mx)%Z -> (Z.to_nat mx <= fuel)%nat ->
      newton_raphson K corr norm fuel cs atol (MInt mx) x0 = NDone K x info beta i ->
      (2 <= i)%nat \/ (forall j, guesses K cs x0 j = x0 j) -> (forall k, term_row K s k = []) ->
      forall R, (R < n)%nat -> ~ In R (no_eval K cs) -> FF s x R = 0.
    Proof.
      intros H1 H2 E Hg Hl R HR NR. rewrite (newton_residual atol mx fuel x info beta i H1 H2 E Hg R HR NR).
      unfold N, gather_rows. apply bsum_0. intros e _. apply bsum_0. intros k _. apply bsum_0. intros r _.
      destruct (gt k e r =? R)%nat; [|reflexivity]. unfold nonlinear_part. rewrite Hl. reflexivity.
    Qed.
    Lemma newton_fixed atol mx fuel x info beta i : (1 <= mx)%Z -> (Z.to_nat mx <= fuel)%nat ->
      newton_raphson K corr norm fuel cs atol (MInt mx) x0 = NDone K x info beta i ->
      forall R, (R < n)%nat -> In R (no_eval K cs) -> x R = prescribed K cs R (x0 R).
    Proof.
      intros H1 H2 E R HR IR. destruct (newton_result atol mx fuel x info beta i H1 H2 E) as [-> _].
      rewrite iterate_fixed_dofs by assumption. apply guesses_prescribed.
    Qed.
  End Run.
End P.
