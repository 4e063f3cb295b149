(** The Newton matrix is the Jacobian of the residual; one Newton step. *)
From Coq Require Import List Arith Bool Lia Permutation Ring.
From Verif Require Import Prelude RingSum MdmModel MdmSpec MdmProofs MdmProofs2 MdmProofs3 MdmProofs4.
Import ListNotations.

Section P.
  Variable K : CRing.
  Add Ring Kring : (Rth K).
  Variable nb : form -> nat.
  Local Open Scope ring_s.
  Notation zero := (fun _ _ : nat => @r0 K).

  Lemma bsum_two (l : list nat) x y (f : nat -> K) : NoDup l -> In x l -> In y l -> x <> y ->
    (forall a, In a l -> a <> x -> a <> y -> f a = 0) -> bsum l f = f x + f y.
  Proof.
    intros D Ix Iy Dxy H.
    transitivity (bsum l (fun a => if (a =? x)%nat then f a else 0) + bsum l (fun a => if (a =? y)%nat then f a else 0)).
    - rewrite <- bsum_plus. apply bsum_ext. intros a Ia.
      destruct (Nat.eqb_spec a x); destruct (Nat.eqb_spec a y); try congruence; try ring.
      rewrite H by assumption. ring.
    - rewrite !bsum_pick_nat by assumption. reflexivity.
  Qed.

  (** ys = xs + t hs *)
  Definition moved (s : nls K) (xs hs ys : list (local K)) (t : K) : Prop :=
    length xs = length (unknowns K s) /\ length hs = length (unknowns K s) /\ length ys = length (unknowns K s) /\
    forall j e c, (j < length (unknowns K s))%nat ->
      nth j ys zero e c = nth j xs zero e c + t * nth j hs zero e c.

  Lemma term_quadratic (s : nls K) xs hs ys t i m e r : usable K s -> trilinear K s -> moved s xs hs ys t ->
    (i < length (tests K s))%nat -> In m (term_row K s i) ->
    let at_ := fun zs => mform K nb m e (upd K (at_unknowns K s zs e) (nth i (tests K s) 0%nat) (unit K r)) in
    at_ ys = at_ xs + t * bsum (seq 0 (length (unknowns K s))) (fun j =>
        bsum (seq 0 (nb (nth j (unknowns K s) 0%nat))) (fun c => dterm K nb s xs i j m e r c * nth j hs zero e c))
      + t * t * at_ hs.
  Proof.
    intros Us Tr (Lx & Lh & Ly & Hm) Hi I at_. pose proof Us as (Ok & Du & _). destruct (nls_ok_iff K s Ok) as [Nt H].
    destruct (H i m Hi I) as (Dc & It & Hc). specialize (Nt _ (nth_In _ 0%nat Hi)).
    unfold at_. clear at_. unfold dterm. set (tv := nth i (tests K s) 0%nat) in *.
    destruct (three_ok (cor K m) tv Dc (Tr i m I) It) as (a & b & T). pose proof T as (_ & Dta & Dtb & Dab).
    assert (forall f, In f (cor K m) -> f <> tv -> exists j, (j < length (unknowns K s))%nat /\ nth j (unknowns K s) 0%nat = f) as Hu.
    { intros f If Df. destruct (Hc f If) as [E|J]; [congruence|]. apply In_nth with (d := 0%nat) in J. exact J. }
    destruct (Hu a) as (ja & Hja & Ea); [apply (three_In _ _ _ _ a T); auto|auto|].
    destruct (Hu b) as (jb & Hjb & Eb); [apply (three_In _ _ _ _ b T); auto|auto|].
    set (E := upd K (at_unknowns K s xs e) tv (unit K r)).
    set (Qf := fun p q => mform K nb m e (upd K (upd K E a p) b q)).
    assert (forall f, In f (cor K m) -> f = tv \/ f = a \/ f = b) as Cs by (intros f If; apply (three_In _ _ _ _ f T); exact If).
    assert (forall zs, length zs = length (unknowns K s) -> forall p q, (forall c, nth ja zs zero e c = p c) -> (forall c, nth jb zs zero e c = q c) ->
      mform K nb m e (upd K (at_unknowns K s zs e) tv (unit K r)) = Qf p q) as F0.
    { intros zs Lz p q Hp Hq. unfold Qf, E. apply mform_ext. intros f c If _. destruct (Cs f If) as [-> | [-> | ->]].
      - rewrite upd_same, !upd_other by auto. rewrite upd_same. reflexivity.
      - rewrite (upd_other K _ tv), (upd_other K _ b) by auto. rewrite upd_same, <- Ea, at_unknown by assumption. apply Hp.
      - rewrite (upd_other K _ tv) by auto. rewrite upd_same, <- Eb, at_unknown by assumption. apply Hq. }
    assert (forall p q, mform K nb m e (upd K (upd K E b q) a p) = Qf p q) as Sw.
    { intros p q. unfold Qf. apply mform_ext. intros f c _ _. unfold upd.
      destruct (Nat.eqb_spec f a) as [->|]; [|reflexivity]. rewrite (proj2 (Nat.eqb_neq a b) Dab). reflexivity. }
    assert (In a (cor K m)) as Iac by (apply (three_In _ _ _ _ a T); auto).
    assert (In b (cor K m)) as Ibc by (apply (three_In _ _ _ _ b T); auto).
    assert (forall p q q', Qf p (fun c => q c + t * q' c) = Qf p q + t * Qf p q') as Lb
      by (intros; unfold Qf; apply mform_lin; assumption).
    assert (forall p p' q, Qf (fun c => p c + t * p' c) q = Qf p q + t * Qf p' q) as La.
    { intros p p' q. rewrite <- !Sw. apply mform_lin; assumption. }
    set (xa := nth ja xs zero e). set (xb := nth jb xs zero e). set (ha := nth ja hs zero e). set (hb := nth jb hs zero e).
    rewrite (F0 ys Ly (fun c => xa c + t * ha c) (fun c => xb c + t * hb c)) by (intros c; apply Hm; assumption).
    pose proof (F0 xs Lx xa xb (fun _ => eq_refl) (fun _ => eq_refl)) as F1. fold E in F1. rewrite F1. rewrite (F0 hs Lh ha hb) by reflexivity.
    assert (forall f h, In f (cor K m) -> bsum (seq 0 (nb f)) (fun c => mform K nb m e (upd K E f (unit K c)) * h c)
       = mform K nb m e (upd K E f h)) as Ex.
    { intros f h If. rewrite (mform_expand K nb m e E f h Dc If). apply bsum_ext. intros c _. ring. }
    rewrite (bsum_two (seq 0 (length (unknowns K s))) ja jb).
    - rewrite Ea, Eb, (proj2 (mem_In a (cor K m)) Iac), (proj2 (mem_In b (cor K m)) Ibc).
      fold tv. fold E. rewrite (Ex a (nth ja hs zero e) Iac), (Ex b (nth jb hs zero e) Ibc). fold ha hb.
      assert (mform K nb m e (upd K E a ha) = Qf ha xb) as ->.
      { unfold Qf. apply mform_ext. intros f c If _. unfold upd at 2. destruct (Nat.eqb_spec f b) as [->|]; [|reflexivity].
        rewrite upd_other by auto. unfold E. rewrite upd_other by auto. rewrite <- Eb, at_unknown by assumption. reflexivity. }
      assert (mform K nb m e (upd K E b hb) = Qf xa hb) as ->.
      { rewrite <- Sw. apply mform_ext. intros f c If _. unfold upd at 2. destruct (Nat.eqb_spec f a) as [->|]; [|reflexivity].
        rewrite upd_other by auto. unfold E. rewrite upd_other by auto. rewrite <- Ea, at_unknown by assumption. reflexivity. }
      rewrite La, !Lb. ring.
    - apply seq_NoDup.
    - apply in_seq. lia.
    - apply in_seq. lia.
    - intros ->. congruence.
    - intros j Hj D1 D2. apply in_seq in Hj. apply bsum_0. intros c _.
      destruct (mem (nth j (unknowns K s) 0%nat) (cor K m)) eqn:Em; [|ring]. exfalso. apply mem_In in Em.
      rewrite NoDup_nth in Du. destruct (Cs _ Em) as [E1|[E1|E1]].
      + apply Nt. rewrite <- E1. apply nth_In. lia.
      + apply D1. apply Du; [lia..|]. rewrite Ea. exact E1.
      + apply D2. apply Du; [lia..|]. rewrite Eb. exact E1.
  Qed.

  Lemma residual_quadratic (s : nls K) xs hs ys t i e r : usable K s -> trilinear K s -> moved s xs hs ys t ->
    (i < length (tests K s))%nat ->
    residual K nb s ys i e r = residual K nb s xs i e r
      + t * bsum (seq 0 (length (unknowns K s))) (fun j => bsum (seq 0 (nb (nth j (unknowns K s) 0%nat))) (fun c =>
          (bval K (block K s i j) e r c + bsum (term_row K s i) (fun m => dterm K nb s xs i j m e r c)) * nth j hs zero e c))
      + t * t * nonlinear_part K nb s hs i e r.
  Proof.
    intros Us Tr M Hi. pose proof M as (Lx & Lh & Ly & Hm). unfold residual.
    assert (linear_part K nb s ys i e r = linear_part K nb s xs i e r +
      t * bsum (seq 0 (length (unknowns K s))) (fun j => bsum (seq 0 (nb (nth j (unknowns K s) 0%nat))) (fun c =>
          bval K (block K s i j) e r c * nth j hs zero e c))) as ->.
    { unfold linear_part. rewrite <- bsum_mul_l, <- bsum_plus. apply bsum_ext. intros j Hj. apply in_seq in Hj.
      destruct (block K s i j) as [B|]; simpl.
      - rewrite <- bsum_mul_l, <- bsum_plus. apply bsum_ext. intros c _. rewrite Hm by lia. ring.
      - rewrite bsum_0; [ring|]. intros; ring. }
    assert (nonlinear_part K nb s ys i e r = nonlinear_part K nb s xs i e r +
      t * bsum (seq 0 (length (unknowns K s))) (fun j => bsum (seq 0 (nb (nth j (unknowns K s) 0%nat))) (fun c =>
          bsum (term_row K s i) (fun m => dterm K nb s xs i j m e r c) * nth j hs zero e c))
      + t * t * nonlinear_part K nb s hs i e r) as ->.
    { unfold nonlinear_part at 1 2 3.
      transitivity (bsum (term_row K s i) (fun m =>
        mform K nb m e (upd K (at_unknowns K s xs e) (nth i (tests K s) 0%nat) (unit K r)) +
        t * bsum (seq 0 (length (unknowns K s))) (fun j =>
        bsum (seq 0 (nb (nth j (unknowns K s) 0%nat))) (fun c => dterm K nb s xs i j m e r c * nth j hs zero e c)) +
        t * t * mform K nb m e (upd K (at_unknowns K s hs e) (nth i (tests K s) 0%nat) (unit K r)))).
      { apply bsum_ext. intros m I. apply term_quadratic; assumption. }
      rewrite !bsum_plus, !bsum_mul_l. f_equal. f_equal. f_equal.
      rewrite bsum_swap. apply bsum_ext. intros j _. rewrite bsum_swap. apply bsum_ext. intros c _.
      rewrite <- bsum_mul_r. reflexivity. }
    assert (bsum (seq 0 (length (unknowns K s))) (fun j => bsum (seq 0 (nb (nth j (unknowns K s) 0%nat))) (fun c =>
          (bval K (block K s i j) e r c + bsum (term_row K s i) (fun m => dterm K nb s xs i j m e r c)) * nth j hs zero e c)) =
      bsum (seq 0 (length (unknowns K s))) (fun j => bsum (seq 0 (nb (nth j (unknowns K s) 0%nat))) (fun c =>
          bval K (block K s i j) e r c * nth j hs zero e c)) +
      bsum (seq 0 (length (unknowns K s))) (fun j => bsum (seq 0 (nb (nth j (unknowns K s) 0%nat))) (fun c =>
          bsum (term_row K s i) (fun m => dterm K nb s xs i j m e r c) * nth j hs zero e c))) as ->.
    { rewrite <- bsum_plus. apply bsum_ext. intros j _. rewrite <- bsum_plus. apply bsum_ext. intros c _. ring. }
    ring.
  Qed.

  (** ** assembled *)
  Variables (els : list nat) (gt gu : nat -> nat -> nat -> nat).
  Lemma locals_length (s : nls K) x : length (locals K gu s x) = length (unknowns K s).
  Proof. unfold locals. rewrite map_length, seq_length. reflexivity. Qed.
  Lemma locals_nth (s : nls K) x j e r : (j < length (unknowns K s))%nat -> nth j (locals K gu s x) zero e r = x (gu j e r).
  Proof.
    intros H. unfold locals.
    rewrite (nth_indep _ zero ((fun j => fun e r => x (gu j e r)) 0%nat)) by (rewrite map_length, seq_length; lia).
    rewrite (map_nth (fun j => fun e r => x (gu j e r))), seq_nth by lia. reflexivity.
  Qed.
  Lemma moved_along (s : nls K) x h t : moved s (locals K gu s x) (locals K gu s h) (locals K gu s (along K x h t)) t.
  Proof. repeat split; try apply locals_length. intros j e c Hj. rewrite !locals_nth by exact Hj. reflexivity. Qed.

  Lemma gather_ext (s : nls K) f g R : (forall i e r, (i < length (tests K s))%nat -> (r < nb (nth i (tests K s) 0%nat))%nat -> f i e r = g i e r) ->
    gather_rows K nb els gt s f R = gather_rows K nb els gt s g R.
  Proof.
    intros H. unfold gather_rows. apply bsum_ext. intros e _. apply bsum_ext. intros i Hi. apply in_seq in Hi.
    apply bsum_ext. intros r Hr. apply in_seq in Hr. destruct (gt i e r =? R)%nat; [apply H; lia|reflexivity].
  Qed.
  Lemma gather_lin (s : nls K) f g t R :
    gather_rows K nb els gt s (fun i e r => f i e r + t * g i e r) R =
    gather_rows K nb els gt s f R + t * gather_rows K nb els gt s g R.
  Proof.
    unfold gather_rows. rewrite <- bsum_mul_l, <- bsum_plus. apply bsum_ext. intros e _.
    rewrite <- bsum_mul_l, <- bsum_plus. apply bsum_ext. intros i _. rewrite <- bsum_mul_l, <- bsum_plus. apply bsum_ext. intros r _.
    destruct (gt i e r =? R)%nat; ring.
  Qed.
  Lemma gather_opp (s : nls K) f R :
    gather_rows K nb els gt s (fun i e r => - f i e r) R = - gather_rows K nb els gt s f R.
  Proof.
    unfold gather_rows. rewrite <- bsum_opp. apply bsum_ext. intros e _. rewrite <- bsum_opp. apply bsum_ext. intros i _.
    rewrite <- bsum_opp. apply bsum_ext. intros r _. destruct (gt i e r =? R)%nat; ring.
  Qed.

  (** the assembled matrix times a global vector *)
  Lemma assemble_m_vec (s : nls K) A n h R : numbering K nb els gu s n ->
    mat_vec K n (assemble_m K nb els gt gu s A) h R =
    gather_rows K nb els gt s (fun i e r => bsum (seq 0 (length (unknowns K s))) (fun j =>
      bsum (seq 0 (nb (nth j (unknowns K s) 0%nat))) (fun c => bval K (nth j (nth i A []) None) e r c * h (gu j e c)))) R.
  Proof.
    intros Hn. unfold mat_vec, assemble_m, gather_rows.
    transitivity (bsum els (fun e => bsum (seq 0 (length (tests K s))) (fun i => bsum (seq 0 (length (unknowns K s))) (fun j =>
      bsum (seq 0 (nb (nth i (tests K s) 0%nat))) (fun r => bsum (seq 0 (nb (nth j (unknowns K s) 0%nat))) (fun c =>
        if (gt i e r =? R)%nat then bval K (nth j (nth i A []) None) e r c * h (gu j e c) else 0)))))).
    - rewrite (bsum_ext K (seq 0 n) _ (fun C => bsum els (fun e => bsum (seq 0 (length (tests K s))) (fun i =>
        bsum (seq 0 (length (unknowns K s))) (fun j => bsum (seq 0 (nb (nth i (tests K s) 0%nat))) (fun r =>
          bsum (seq 0 (nb (nth j (unknowns K s) 0%nat))) (fun c =>
          if (gt i e r =? R)%nat then if (gu j e c =? C)%nat then bval K (nth j (nth i A []) None) e r c * h C else 0 else 0))))))).
      + rewrite bsum_swap. apply bsum_ext. intros e He. rewrite bsum_swap. apply bsum_ext. intros i _.
        rewrite bsum_swap. apply bsum_ext. intros j Hj. rewrite bsum_swap. apply bsum_ext. intros r _.
        rewrite bsum_swap. apply bsum_ext. intros c Hc. destruct (gt i e r =? R)%nat; [|apply bsum_0; reflexivity].
        apply in_seq in Hj, Hc. rewrite (bsum_only K (seq 0 n) (gu j e c)).
        * rewrite Nat.eqb_refl. reflexivity.
        * apply seq_NoDup.
        * apply in_seq. pose proof (Hn j e c ltac:(lia) He ltac:(lia)). lia.
        * intros C _ D. rewrite (proj2 (Nat.eqb_neq _ _)); [reflexivity|congruence].
      + intros C _. rewrite <- bsum_mul_r. apply bsum_ext. intros e _. rewrite <- bsum_mul_r. apply bsum_ext. intros i _.
        rewrite <- bsum_mul_r. apply bsum_ext. intros j _.
        destruct (nth j (nth i A []) None) as [M|]; simpl.
        * rewrite <- bsum_mul_r. apply bsum_ext. intros r _. rewrite <- bsum_mul_r. apply bsum_ext. intros c _.
          destruct (gt i e r =? R)%nat, (gu j e c =? C)%nat; ring.
        * symmetry. rewrite bsum_0; [ring|]. intros r _. apply bsum_0. intros c _.
          destruct (gt i e r =? R)%nat, (gu j e c =? C)%nat; ring.
    - apply bsum_ext. intros e _. apply bsum_ext. intros i _. rewrite bsum_swap. apply bsum_ext. intros r _.
      destruct (gt i e r =? R)%nat; [reflexivity|]. apply bsum_0. intros j _. apply bsum_0. reflexivity.
  Qed.

  (** the matrix and vector built for x: J and -F(x) *)
  Lemma newton_parts (s : nls K) x n : usable K s -> trilinear K s -> numbering K nb els gu s n ->
    exists A f, lhs K nb s (locals K gu s x) = Some A /\ evaluate_f K nb s (locals K gu s x) true = Some f /\
      (forall R, assemble_v K nb els gt s f R = - F K nb els gt gu s x R) /\
      (forall h t R, F K nb els gt gu s (along K x h t) R = F K nb els gt gu s x R
        + t * mat_vec K n (assemble_m K nb els gt gu s A) h R + t * t * N K nb els gt gu s h R).
  Proof.
    intros Us Tr Hn. destruct (lhs_ok K nb s (locals K gu s x) Us Tr (locals_length s x)) as (A & EA & _ & HA).
    destruct (evaluate_f_ok K nb s (locals K gu s x) true Us (locals_length s x)) as (f & Ef & _ & Hf).
    exists A, f. split; [exact EA|]. split; [exact Ef|]. split.
    - intros R. unfold F. rewrite <- gather_opp.
      transitivity (gather_rows K nb els gt s (fun i e r => nth i f zero e r) R); [reflexivity|].
      apply gather_ext. intros i e r Hi _. apply Hf. exact Hi.
    - intros h t R. rewrite (assemble_m_vec s A n h R Hn). unfold F, N.
      rewrite <- !gather_lin. apply gather_ext. intros i e r Hi Hr.
      rewrite (residual_quadratic s _ _ _ t i e r Us Tr (moved_along s x h t) Hi). f_equal. f_equal. f_equal.
      apply bsum_ext. intros j Hj. apply in_seq in Hj. apply bsum_ext. intros c Hc. apply in_seq in Hc.
      rewrite HA by lia. rewrite locals_nth by lia. reflexivity.
  Qed.
  Lemma newton_system_ok (s : nls K) fixed x n : usable K s -> trilinear K s -> numbering K nb els gu s n ->
    exists A b J, newton_system K nb els gt gu s fixed x = Some (A, b) /\
      (forall R C, In R fixed -> A R C = if (R =? C)%nat then 1 else 0) /\ (forall R, In R fixed -> b R = 0) /\
      (forall R C, ~ In R fixed -> A R C = J R C) /\
      (forall R, ~ In R fixed -> b R = - F K nb els gt gu s x R) /\
      (forall h t R, F K nb els gt gu s (along K x h t) R = F K nb els gt gu s x R
        + t * mat_vec K n J h R + t * t * N K nb els gt gu s h R).
  Proof.
    intros Us Tr Hn. destruct (newton_parts s x n Us Tr Hn) as (A & f & EA & Ef & Hf & HA).
    unfold newton_system. change (distribute K gu s x) with (locals K gu s x). rewrite EA, Ef.
    eexists. eexists. exists (assemble_m K nb els gt gu s A). split; [reflexivity|]. cbn beta.
    split; [intros R C I; rewrite (proj2 (mem_In _ _) I); reflexivity|].
    split; [intros R I; rewrite (proj2 (mem_In _ _) I); reflexivity|].
    split; [intros R C I; rewrite (proj2 (mem_false _ _) I); reflexivity|].
    split; [intros R I; rewrite (proj2 (mem_false _ _) I); apply Hf|]. exact HA.
  Qed.
End P.
