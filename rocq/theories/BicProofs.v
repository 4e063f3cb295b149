(** Proofs about the BiCGSTAB model. *)
From Coq Require Import List Arith Bool Lia Ring.
From Verif Require Import Prelude PreludeProofs RingSum KrylovModel KrylovSpec.
Import ListNotations.

Section Bic.
  Variable K : CRing.
  Variable div : K -> K -> K.
  Add Ring Kr : (Rth K).
  Local Open Scope ring_s.
  Notation vec := (nat -> K).
  Notation mat := (nat -> nat -> K).
  Definition eqv (x y : vec) : Prop := forall i, x i = y i.

  Lemma mulv_ext n A x y : eqv x y -> eqv (mulv K n A x) (mulv K n A y).
  Proof. intros H i. unfold mulv. apply bsum_ext. intros j _. rewrite H. reflexivity. Qed.
  Lemma dot_ext n x x' y y' : eqv x x' -> eqv y y' -> dot K n x y = dot K n x' y'.
  Proof. intros H H'. unfold dot. apply bsum_ext. intros j _. rewrite H, H'. reflexivity. Qed.
  Lemma mulv_whole SIZE n A x : eqv (apply_A K SIZE n A x) (mulv K n (whole_A K SIZE A) x).
  Proof.
    intros i. unfold apply_A, reduce, mulv, whole_A. rewrite bsum_swap. apply bsum_ext. intros j _. rewrite <- bsum_mul_r. reflexivity.
  Qed.
  Lemma mulv_plus n A x y i : mulv K n A (fun j => x j + y j) i = mulv K n A x i + mulv K n A y i.
  Proof. unfold mulv. rewrite <- bsum_plus. apply bsum_ext. intros. ring. Qed.
  Lemma mulv_scale n A c x i : mulv K n A (fun j => c * x j) i = c * mulv K n A x i.
  Proof. unfold mulv. rewrite <- bsum_mul_l. apply bsum_ext. intros. ring. Qed.

  Lemma put_same h a v : put_array K h a v a = v.
  Proof. unfold put_array. rewrite Nat.eqb_refl. reflexivity. Qed.
  Lemma put_other h a v b : b <> a -> put_array K h a v b = h b.
  Proof. unfold put_array. intros H. destruct (Nat.eqb_spec b a); [contradiction|reflexivity]. Qed.

  (** * the textbook *)
  Section Text.
    Variables (n : nat) (A : mat) (b x0 : vec).
    (** the recursive residual is the residual *)
    Lemma tb_step_residual sh s : eqv (tr K s) (residual K n A b (tx K s)) ->
      eqv (tr K (tb_step K div n A sh s)) (residual K n A b (tx K (tb_step K div n A sh s))).
    Proof.
      intros H i. unfold tb_step. cbn [tr tx]. unfold residual at 1.
      set (rho := dot K n sh (tr K s)). set (beta := div rho (trho K s) * div (talpha K s) (tomega K s)).
      set (p := fun j : nat => tr K s j + beta * (tp K s j - tomega K s * tv K s j)).
      set (al := div rho (dot K n sh (mulv K n A p))).
      set (sv := fun j : nat => tr K s j - al * mulv K n A p j).
      set (om := div (dot K n (mulv K n A sv) sv) (dot K n (mulv K n A sv) (mulv K n A sv))).
      change (sv i - om * mulv K n A sv i = b i - mulv K n A (fun j => tx K s j + (al * p j + om * sv j)) i).
      rewrite (mulv_plus n A (tx K s) (fun j => al * p j + om * sv j)), (mulv_plus n A (fun j => al * p j) (fun j => om * sv j)), !mulv_scale.
      change (mulv K n A (fun j : nat => p j) i) with (mulv K n A p i).
      change (mulv K n A (fun j : nat => sv j) i) with (mulv K n A sv i).
      change (mulv K n A (fun j : nat => tx K s j) i) with (mulv K n A (tx K s) i).
      unfold sv at 1. rewrite (H i). unfold residual. ring.
    Qed.
    Lemma textbook_residual sh k : eqv (tr K (textbook K div n A b x0 sh k)) (residual K n A b (tx K (textbook K div n A b x0 sh k))).
    Proof. induction k; [intros i; reflexivity|]. cbn [textbook]. apply tb_step_residual, IHk. Qed.
    Definition eqtb (s t : tb K) : Prop :=
      eqv (tx K s) (tx K t) /\ eqv (tr K s) (tr K t) /\ eqv (tp K s) (tp K t) /\ eqv (tv K s) (tv K t) /\
      trho K s = trho K t /\ talpha K s = talpha K t /\ tomega K s = tomega K t.
  End Text.

  Section Run.
    Variables (SIZE n : nat) (A : nat -> mat) (f : nat -> vec) (h0 : nat -> vec) (x0 : vec).
    Let At := whole_A K SIZE A.
    Let bt := whole_f K SIZE f.
    Lemma head_residual x : eqv (reduce K SIZE (fun r => vminus K (f r) (mulv K n (A r) x))) (residual K n At bt x).
    Proof.
      intros i. unfold reduce, vminus, residual. rewrite bsum_minus. f_equal. apply (mulv_whole SIZE n A x i).
    Qed.

    (** before the body, the names hold the textbook's quantities *)
    Definition ready (sh : vec) (s : bstate K) (t : tb K) : Prop :=
      eqv (xsol K s) (tx K t) /\ eqv (heap K s (pr0 K s)) (tr K t) /\ eqv (heap K s (pp0 K s)) (tp K t) /\
      eqv (heap K s (pv0 K s)) (tv K t) /\ rho0 K s = trho K t /\ alpha K s = talpha K t /\ omega0 K s = tomega K t /\
      eqv (heap K s (phr0 K s)) sh /\
      phr0 K s = 0%nat /\ pv1 K s = 3%nat /\ pt K s = 4%nat /\ (5 <= fresh K s)%nat /\
      (pr0 K s < fresh K s)%nat /\ pr0 K s <> 3%nat /\ pr0 K s <> 4%nat.
    (** after the body *)
    Definition done (s : bstate K) (t : tb K) : Prop :=
      eqv (xsol K s) (tx K t) /\ eqv (heap K s (pp1 K s)) (tp K t) /\ eqv (heap K s (pv1 K s)) (tv K t) /\
      (forall i, heap K s (ps K s) i - omega1 K s * heap K s (pt K s) i = tr K t i) /\
      rho1 K s = trho K t /\ alpha K s = talpha K t /\ omega1 K s = tomega K t /\
      phr0 K s = 0%nat /\ pv1 K s = 3%nat /\ pt K s = 4%nat /\ (5 <= fresh K s)%nat /\
      (pr0 K s < pp1 K s)%nat /\ (pp1 K s < ps K s)%nat /\ (ps K s < fresh K s)%nat /\ (5 <= pp1 K s)%nat /\ pr0 K s <> 3%nat /\ pr0 K s <> 4%nat.

    Lemma body_ok sh s t : ready sh s t ->
      done (bic_body K div SIZE n A s) (tb_step K div n At sh t) /\ pr0 K (bic_body K div SIZE n A s) = pr0 K s /\
      heap K (bic_body K div SIZE n A s) 0 = heap K s 0.
    Proof.
      intros (X & R & P & V & Rh & Al & Om & Sh & Hp & H1 & Ht & Hf & Hr & Hr3 & Hr4).
      unfold bic_body. cbv zeta. rewrite H1, Ht, Hp in *. set (a := fresh K s) in *. set (h := heap K s) in *.
      set (rho' := dot K n (h 0%nat) (h (pr0 K s))).
      assert (E1 : rho' = dot K n sh (tr K t)) by (apply dot_ext; assumption).
      rewrite Rh, Al, Om, E1 in *. clear E1 rho'.
      set (rho := dot K n sh (tr K t)). set (beta := div rho (trho K t) * div (talpha K t) (tomega K t)).
      set (p' := vplus K (h (pr0 K s)) _).
      set (p := fun i => tr K t i + beta * (tp K t i - tomega K t * tv K t i)).
      assert (EP : eqv p' p) by (intros i; unfold p', p, vplus, vscale, vminus; rewrite R, P, V; reflexivity).
      rewrite !put_same.
      rewrite (put_other _ 3 _ 0) by lia. rewrite (put_other _ a _ 0) by lia.
      rewrite (put_other _ 3 _ (pr0 K s)) by assumption. rewrite (put_other _ a _ (pr0 K s)) by lia.
      set (v' := apply_A K SIZE n A p'). set (v := mulv K n At p).
      assert (EV : eqv v' v) by (intros i; unfold v', v; rewrite mulv_whole; apply mulv_ext, EP).
      assert (EA : div rho (dot K n (h 0%nat) v') = div rho (dot K n sh v)) by (f_equal; apply dot_ext; assumption).
      rewrite EA in *. clear EA. set (al := div rho (dot K n sh v)).
      set (s' := vminus K (h (pr0 K s)) _). set (sv := fun i => tr K t i - al * v i).
      assert (ES : eqv s' sv) by (intros i; unfold s', sv, vminus, vscale; rewrite R, EV; reflexivity).
      rewrite (put_other _ 4 _ (S a)) by lia. rewrite !put_same.
      rewrite (put_other _ 4 _ a) by lia. rewrite (put_other _ (S a) _ a) by lia. rewrite (put_other _ 3 _ a) by lia. rewrite !put_same.
      set (t' := apply_A K SIZE n A s'). set (tt := mulv K n At sv).
      assert (ET : eqv t' tt) by (intros i; unfold t', tt; rewrite mulv_whole; apply mulv_ext, ES).
      assert (EO : div (dot K n t' s') (dot K n t' t') = div (dot K n tt sv) (dot K n tt tt))
        by (f_equal; apply dot_ext; assumption).
      rewrite EO in *. clear EO.
      split; [|split; [reflexivity|]].
      - unfold done, tb_step. cbn [heap fresh pr0 phr0 pp0 pv0 pv1 pt pp1 ps rho1 omega1 alpha xsol tx tr tp tv trho talpha tomega].
        fold rho beta p v al sv tt. set (om := div (dot K n tt sv) (dot K n tt tt)).
        rewrite (put_other _ 4 _ a) by lia. rewrite (put_other _ (S a) _ a) by lia. rewrite (put_other _ 3 _ a) by lia. rewrite !put_same.
        rewrite (put_other _ 4 _ 3) by lia. rewrite (put_other _ (S a) _ 3) by lia. rewrite !put_same.
        rewrite (put_other _ 4 _ (S a)) by lia. rewrite !put_same.
        repeat split; try assumption; try lia.
        + intros i. unfold vplus, vscale. rewrite X, EP, ES. reflexivity.
        + intros i. rewrite ES, ET. reflexivity.
      - cbn [heap]. rewrite !put_other by lia. reflexivity.
    Qed.

    (** the states at the stop test *)
    Definition at_test (k : nat) (s : bstate K) (t : tb K) : Prop :=
      done s t /\ eqv (bic_residual K s) (residual K n At bt (tx K t)) /\ (k = 1%nat -> pr0 K s = 0%nat) /\ ((1 < k)%nat -> pr0 K s <> 0%nat).

    Lemma head_ok k s t : (0 < k)%nat -> done s t -> done (bic_head K SIZE n A f k s) t /\
      eqv (bic_residual K (bic_head K SIZE n A f k s)) (residual K n At bt (tx K t)).
    Proof.
      intros Hk (X & P & V & R & Rh & Al & Om & Hp & H1 & Ht & Hf & L1 & L2 & L3 & L4 & N3 & N4).
      unfold bic_head, bic_residual. destruct (Nat.eqb_spec k 0); [lia|]. split.
      - unfold done. cbn [heap fresh pr0 phr0 pp0 pv0 pv1 pt pp1 ps rho1 omega1 alpha xsol].
        rewrite !put_other by lia. repeat split; assumption.
      - cbn [heap pr0]. rewrite put_same. intros i. rewrite head_residual. unfold residual. f_equal. apply mulv_ext, X.
    Qed.

    Variable sh : nat -> vec.
    Hypothesis sh0 : eqv (sh 0%nat) (residual K n At bt x0).
    Hypothesis sh1 : forall k, (0 < k)%nat -> eqv (sh k) (residual K n At bt (tx K (textbook K div n At bt x0 sh 1))).

    Lemma shift_ok k s : at_test k s (textbook K div n At bt x0 sh k) -> (0 < k)%nat ->
      eqv (heap K s 0) (sh k) -> 
      let s' := bic_shift K (S k) s in
      ready (sh k) s' (textbook K div n At bt x0 sh k) /\ pr0 K s' <> 0%nat /\ eqv (heap K s' 0) (sh k).
    Proof.
      intros ((X & P & V & R & Rh & Al & Om & Hp & H1 & Ht & Hf & L1 & L2 & L3 & L4 & N3 & N4) & Res & Z1 & Z2) Hk H0.
      cbv zeta. unfold bic_shift. destruct (Nat.ltb_spec 1 (S k)); [|lia]. unfold ready.
      cbn [heap fresh pr0 phr0 pp0 pv0 pv1 pt pp1 ps rho0 rho1 omega0 omega1 alpha xsol].
      rewrite put_same, Hp, H1, Ht. rewrite !put_other by lia.
      rewrite H1 in V. repeat split; try assumption; try lia.
      intros i. unfold vminus, vscale. rewrite <- (R i), Ht. reflexivity.
    Qed.

    Lemma bic_at_S k : bic_at K div SIZE n A f h0 x0 (S k) =
      bic_head K SIZE n A f (S k) (bic_body K div SIZE n A (bic_shift K (S k) (bic_at K div SIZE n A f h0 x0 k))).
    Proof. reflexivity. Qed.
    Lemma shift_1 s : bic_shift K 1 s = s.
    Proof. reflexivity. Qed.
    Lemma textbook_S k : textbook K div n At bt x0 sh (S k) = tb_step K div n At (sh k) (textbook K div n At bt x0 sh k).
    Proof. reflexivity. Qed.
    Lemma head_pr0 k s : pr0 K (bic_head K SIZE n A f k s) = pr0 K s.
    Proof. reflexivity. Qed.
    Lemma head_heap k s a : a <> pr0 K s -> heap K (bic_head K SIZE n A f k s) a = heap K s a.
    Proof. intros H. unfold bic_head. cbn [heap]. apply put_other, H. Qed.

    Lemma first_ready : ready (sh 0%nat) (bic_at K div SIZE n A f h0 x0 0) (textbook K div n At bt x0 sh 0).
    Proof.
      cbn [bic_at textbook]. unfold ready, bic_head, bic_init, tb_start.
      cbn [heap fresh pr0 phr0 pp0 pv0 pv1 pt pp1 ps rho0 rho1 omega0 omega1 alpha xsol Nat.eqb tx tr tp tv trho talpha tomega].
      rewrite put_same. split; [intros i; reflexivity|]. split; [apply head_residual|].
      split; [intros i; rewrite !put_other by lia; rewrite put_same; reflexivity|].
      split; [intros i; rewrite put_other by lia; rewrite put_same; reflexivity|].
      do 3 (split; [reflexivity|]). split; [|repeat split; lia].
      intros i. rewrite head_residual, sh0. reflexivity.
    Qed.

    Lemma run_ok k :
      at_test (S k) (bic_at K div SIZE n A f h0 x0 (S k)) (textbook K div n At bt x0 sh (S k)) /\
      eqv (heap K (bic_at K div SIZE n A f h0 x0 (S k)) 0) (sh (S k)).
    Proof.
      induction k.
      - pose proof first_ready as RD.
        assert (Z0 : pr0 K (bic_at K div SIZE n A f h0 x0 0) = 0%nat) by reflexivity.
        rewrite bic_at_S, shift_1, textbook_S. set (i0 := bic_at K div SIZE n A f h0 x0 0) in *. clearbody i0.
        pose proof (sh1 1 ltac:(lia)) as S1. rewrite textbook_S in S1.
        set (t0 := textbook K div n At bt x0 sh 0) in *. clearbody t0.
        destruct (body_ok _ _ _ RD) as (D & E & F). destruct (head_ok 1 _ _ ltac:(lia) D) as (D' & R').
        set (b0 := bic_body K div SIZE n A i0) in *. clearbody b0.
        assert (Z : pr0 K (bic_head K SIZE n A f 1 b0) = 0%nat) by (rewrite head_pr0, E; exact Z0).
        split.
        + split; [exact D'|]. split; [exact R'|]. split; [intros _; exact Z|lia].
        + intros i. rewrite S1. unfold bic_residual in R'. rewrite Z in R'. apply R'.
      - destruct IHk as (IA & IH).
        destruct (shift_ok (S k) _ IA ltac:(lia) IH) as (RD & NZ & HS).
        rewrite bic_at_S, textbook_S. set (s1 := bic_shift K (S (S k)) (bic_at K div SIZE n A f h0 x0 (S k))) in *. clearbody s1.
        set (t0 := textbook K div n At bt x0 sh (S k)) in *. clearbody t0.
        destruct (body_ok _ _ _ RD) as (D & E & F).
        destruct (head_ok (S (S k)) _ _ ltac:(lia) D) as (D' & R').
        set (b0 := bic_body K div SIZE n A s1) in *. clearbody b0.
        assert (Z : pr0 K (bic_head K SIZE n A f (S (S k)) b0) <> 0%nat) by (rewrite head_pr0, E; exact NZ).
        split.
        + split; [exact D'|]. split; [exact R'|]. split; [lia|intros _; exact Z].
        + intros i. rewrite head_heap by (rewrite E; intros C; apply NZ; symmetry; exact C).
          rewrite F, HS, (sh1 (S k)), (sh1 (S (S k))) by lia. reflexivity.
    Qed.

    Lemma bic_ok k :
      eqv (xsol K (bic_at K div SIZE n A f h0 x0 k)) (tx K (textbook K div n At bt x0 sh k)) /\
      eqv (bic_residual K (bic_at K div SIZE n A f h0 x0 k)) (residual K n At bt (xsol K (bic_at K div SIZE n A f h0 x0 k))).
    Proof.
      destruct k.
      - split; [intros i; reflexivity|]. intros i. unfold bic_residual, bic_at, bic_head, bic_init.
        cbn [heap pr0 xsol]. rewrite put_same. apply head_residual.
      - destruct (run_ok k) as (((X & _) & R & _) & _). split; [exact X|].
        intros i. rewrite (R i). unfold residual. f_equal. symmetry. apply mulv_ext, X.
    Qed.
  End Run.
  Lemma bic_overwritten SIZE n A f h0 x0 k : let At := whole_A K SIZE A in let bt := whole_f K SIZE f in
      eqv (xsol K (bic_at K div SIZE n A f h0 x0 k)) (tx K (textbook K div n At bt x0 (overwritten K div n At bt x0) k)).
  Proof. intros. apply bic_ok; [intros i; reflexivity|]. intros j Hj. destruct j; [lia|]. intros i. reflexivity. Qed.
  Lemma bic_true_residual SIZE n A f h0 x0 k :
      eqv (bic_residual K (bic_at K div SIZE n A f h0 x0 k)) (residual K n (whole_A K SIZE A) (whole_f K SIZE f) (xsol K (bic_at K div SIZE n A f h0 x0 k))).
  Proof.
    apply (bic_ok SIZE n A f h0 x0 (overwritten K div n (whole_A K SIZE A) (whole_f K SIZE f) x0)); [intros i; reflexivity|].
    intros j Hj. destruct j; [lia|]. intros i. reflexivity.
  Qed.
End Bic.
