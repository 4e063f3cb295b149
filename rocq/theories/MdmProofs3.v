(** Multilinearity, the derivative blocks and the residual of a nonlinear system. *)
From Coq Require Import List Arith Bool Lia Permutation Ring.
From Verif Require Import Prelude RingSum MdmModel MdmSpec MdmProofs MdmProofs2.
Import ListNotations.

Lemma sequence_map {A B} (f : A -> option B) (P : A -> B -> Prop) l :
  (forall a, In a l -> exists b, f a = Some b /\ P a b) ->
  exists bs, sequence (map f l) = Some bs /\ Forall2 P l bs.
Proof.
  induction l as [|a l IH]; intros H; simpl; [exists []; split; [reflexivity|constructor]|].
  destruct (H a (or_introl eq_refl)) as (b & E & Pb). rewrite E.
  destruct IH as (bs & Es & F); [intros a' I; apply H; right; exact I|]. rewrite Es. exists (b :: bs).
  split; [reflexivity|]. constructor; assumption.
Qed.
Lemma sequence_None {A} (l : list (option A)) : In None l -> sequence l = None.
Proof.
  induction l as [|[a|] l IH]; simpl; intros H; [destruct H| |reflexivity].
  destruct H as [H|H]; [discriminate|]. rewrite IH by exact H. reflexivity.
Qed.
Lemma Forall2_seq {B} (P : nat -> B -> Prop) n s bs d : Forall2 P (seq s n) bs ->
  length bs = n /\ forall i, i < n -> P (s + i) (nth i bs d).
Proof.
  revert s bs. induction n as [|n IH]; simpl; intros s bs F; inversion F; subst; [split; [reflexivity|lia]|].
  destruct (IH _ _ H3) as [L H]. split; [simpl; lia|]. intros [|i] Hi; simpl; [now rewrite Nat.add_0_r|].
  replace (s + S i) with (S s + i) by lia. apply H. lia.
Qed.
Lemma inhomogeneous_iff K (m : mdm K) : inhomogeneous K m = true <-> NoDup (cor K m).
Proof.
  unfold inhomogeneous, ndim. rewrite forallb_forall. rewrite (NoDup_nth (cor K m) 0). split.
  - intros H i j Hi Hj E. specialize (H i ltac:(apply in_seq; lia)). rewrite forallb_forall in H.
    specialize (H j ltac:(apply in_seq; lia)). rewrite E, Nat.eqb_refl, andb_true_r, negb_involutive in H.
    apply Nat.eqb_eq. exact H.
  - intros H i Hi. apply forallb_forall. intros j Hj. apply in_seq in Hi, Hj.
    destruct (Nat.eqb_spec i j) as [->|D]; simpl; [reflexivity|].
    destruct (Nat.eqb_spec (nth i (cor K m) 0) (nth j (cor K m) 0)) as [E|E]; [|reflexivity].
    exfalso. apply D, H; [lia..|exact E].
Qed.
Lemma filter_single {A B} (p : A * B -> bool) l q : NoDup (map fst l) -> In q l -> p q = true ->
  (forall r, In r l -> p r = true -> fst r = fst q) -> filter p l = [q].
Proof.
  induction l as [|a l IH]; simpl; intros D I Hq H; [destruct I|]. inversion D as [|? ? D1 D2]; subst.
  destruct I as [->|I].
  - rewrite Hq. f_equal. assert (forall r, In r l -> p r = false) as F.
    { intros r Hr. destruct (p r) eqn:E; [|reflexivity]. exfalso. apply D1. rewrite <- (H r (or_intror Hr) E).
      apply in_map, Hr. }
    clear -F. induction l as [|r l IH]; simpl; [reflexivity|]. rewrite (F r (or_introl eq_refl)). apply IH.
    intros r' Hr'. apply F. right. exact Hr'.
  - destruct (p a) eqn:E.
    + exfalso. apply D1. rewrite (H a (or_introl eq_refl) E). apply in_map, I.
    + apply IH; auto.
Qed.

(** * three different forms *)
Definition three (l : list form) (t u w : form) : Prop := Permutation l [t; u; w] /\ t <> u /\ t <> w /\ u <> w.
Lemma three_ok l t : NoDup l -> length l = 3 -> In t l -> exists u w, three l t u w.
Proof.
  intros D L I. apply in_split in I. destruct I as (l1 & l2 & ->). rewrite app_length in L. simpl in L.
  assert (Permutation (l1 ++ t :: l2) (t :: l1 ++ l2)) as P by (symmetry; apply Permutation_middle).
  assert (exists u w, l1 ++ l2 = [u; w]) as (u & w & E).
  { assert (length (l1 ++ l2) = 2%nat) as L2 by (rewrite app_length; lia).
    destruct (l1 ++ l2) as [|u [|w [|]]]; try discriminate. eauto. }
  exists u, w. rewrite E in P. split; [exact P|]. apply (Permutation_NoDup P) in D.
  inversion D as [|? ? N1 D1]; subst. inversion D1 as [|? ? N2 D2]; subst. simpl in *. repeat split; intros ->; tauto.
Qed.
Lemma three_In l t u w f : three l t u w -> In f l <-> f = t \/ f = u \/ f = w.
Proof.
  intros [P _]. split.
  - intros I. apply (Permutation_in _ P) in I. simpl in I. intuition.
  - intros H. apply (Permutation_in _ (Permutation_sym P)). simpl. intuition.
Qed.
Lemma three_NoDup l t u w : three l t u w -> NoDup l.
Proof.
  intros (P & A & B & C). apply (Permutation_NoDup (Permutation_sym P)).
  repeat constructor; simpl; intuition congruence.
Qed.
Lemma three_cases l t u w : three l t u w ->
  l = [t; u; w] \/ l = [t; w; u] \/ l = [u; t; w] \/ l = [u; w; t] \/ l = [w; t; u] \/ l = [w; u; t].
Proof.
  intros H. pose proof (three_NoDup _ _ _ _ H) as D. destruct H as (P & A & B & C).
  pose proof (Permutation_length P) as L. destruct l as [|a [|b [|c [|]]]]; try discriminate.
  assert (forall f, In f [a; b; c] -> f = t \/ f = u \/ f = w) as I.
  { intros f I. apply (Permutation_in _ P) in I. simpl in I. intuition. }
  inversion D as [|? ? N1 D1]; subst. inversion D1 as [|? ? N2 D2]; subst. simpl in N1, N2.
  destruct (I a (or_introl eq_refl)) as [->|[->| ->]];
  destruct (I b (or_intror (or_introl eq_refl))) as [->|[->| ->]]; try (exfalso; tauto);
  destruct (I c (or_intror (or_intror (or_introl eq_refl)))) as [->|[->| ->]]; try (exfalso; tauto); tauto.
Qed.

Section P.
  Variable K : CRing.
  Add Ring Kring : (Rth K).
  Variable nb : form -> nat.
  Local Open Scope ring_s.

  (** * multilinearity *)
  Lemma mval_map_ext l : forall (T : list nat -> K) env env',
    (forall f i, In f l -> (i < nb f)%nat -> env f i = env' f i) ->
    mval K (map nb l) T (map env l) = mval K (map nb l) T (map env' l).
  Proof.
    induction l as [|f l IH]; intros T env env' H; simpl; [reflexivity|]. apply bsum_ext. intros i Hi. apply in_seq in Hi.
    rewrite (H f i) by (simpl; auto; lia). f_equal. apply IH. intros f' i' I. apply H. right. exact I.
  Qed.
  Lemma mform_ext m e env env' : (forall f i, In f (cor K m) -> (i < nb f)%nat -> env f i = env' f i) ->
    mform K nb m e env = mform K nb m e env'.
  Proof. intros H. apply mval_map_ext. exact H. Qed.
  Lemma upd_same env f (x : nat -> K) : upd K env f x f = x.
  Proof. unfold upd. rewrite Nat.eqb_refl. reflexivity. Qed.
  Lemma upd_other env f (x : nat -> K) g : g <> f -> upd K env f x g = env g.
  Proof. intros D. unfold upd. rewrite (proj2 (Nat.eqb_neq g f) D). reflexivity. Qed.

  Lemma mval_expand l : forall (T : list nat -> K) env u x, NoDup l -> In u l ->
    mval K (map nb l) T (map (upd K env u x) l) =
    bsum (seq 0 (nb u)) (fun c => x c * mval K (map nb l) T (map (upd K env u (unit K c)) l)).
  Proof.
    induction l as [|f l IH]; intros T env u x D I; [destruct I|]. inversion D as [|? ? D1 D2]; subst.
    cbn [map mval]. destruct (Nat.eq_dec f u) as [->|Df].
    - assert (forall T y, mval K (map nb l) T (map (upd K env u y) l) = mval K (map nb l) T (map env l)) as A.
      { intros T' y. apply mval_map_ext. intros g i Ig _. rewrite upd_other; [reflexivity|]. intros ->. tauto. }
      apply bsum_ext. intros c Hc. apply in_seq in Hc. rewrite upd_same, A. f_equal.
      rewrite (bsum_only K (seq 0 (nb u)) c).
      + rewrite upd_same, A. unfold unit. rewrite Nat.eqb_refl. ring.
      + apply seq_NoDup.
      + apply in_seq. lia.
      + intros a _ Da. rewrite upd_same. unfold unit. rewrite (proj2 (Nat.eqb_neq a c) Da). ring.
    - destruct I as [E|I]; [congruence|].
      transitivity (bsum (seq 0 (nb f)) (fun i => bsum (seq 0 (nb u)) (fun c =>
        x c * (env f i * mval K (map nb l) (fun a => T (i :: a)) (map (upd K env u (unit K c)) l))))).
      + apply bsum_ext. intros i _. rewrite upd_other by exact Df. rewrite (IH _ env u x D2 I), <- bsum_mul_l.
        apply bsum_ext. intros c _. ring.
      + rewrite bsum_swap. apply bsum_ext. intros c _. rewrite bsum_mul_l. f_equal. apply bsum_ext. intros i _.
        rewrite upd_other by exact Df. reflexivity.
  Qed.
  Lemma mform_expand m e env u x : NoDup (cor K m) -> In u (cor K m) ->
    mform K nb m e (upd K env u x) = bsum (seq 0 (nb u)) (fun c => x c * mform K nb m e (upd K env u (unit K c))).
  Proof. intros D I. apply mval_expand; assumption. Qed.
  Lemma mform_lin m e env u x y s : NoDup (cor K m) -> In u (cor K m) ->
    mform K nb m e (upd K env u (fun i => x i + s * y i)) =
    mform K nb m e (upd K env u x) + s * mform K nb m e (upd K env u y).
  Proof.
    intros D I. rewrite (mform_expand m e env u x D I), (mform_expand m e env u y D I), (mform_expand m e env u _ D I).
    rewrite <- bsum_mul_l, <- bsum_plus. apply bsum_ext. intros c _. ring.
  Qed.
  Lemma mform_upd_self m e env u : mform K nb m e (upd K env u (env u)) = mform K nb m e env.
  Proof. apply mform_ext. intros f i _ _. unfold upd. destruct (Nat.eqb_spec f u) as [->|]; reflexivity. Qed.

  Lemma mval_unit2 d0 d1 (T : list nat -> K) r c : (r < d0)%nat -> (c < d1)%nat ->
    mval K [d0; d1] T [unit K r; unit K c] = T [r; c].
  Proof.
    intros Hr Hc. simpl. rewrite (bsum_only K (seq 0 d0) r); [|apply seq_NoDup|apply in_seq; lia|].
    - rewrite (bsum_only K (seq 0 d1) c); [|apply seq_NoDup|apply in_seq; lia|].
      + unfold unit. rewrite !Nat.eqb_refl. ring.
      + intros a _ D. unfold unit. rewrite (proj2 (Nat.eqb_neq a c) D). ring.
    - intros a _ D. unfold unit at 1. rewrite (proj2 (Nat.eqb_neq a r) D). ring.
  Qed.

  (** * derivative_contribution_to *)
  Lemma given_In (pairs : list (form * local K)) e f c : NoDup (map fst pairs) -> In (f, c) pairs -> given K pairs e f = c e.
  Proof.
    induction pairs as [|[g d] ps IH]; simpl; intros D I; [destruct I|]. inversion D as [|? ? D1 D2]; subst.
    destruct I as [E|I]; [injection E as -> ->; rewrite Nat.eqb_refl; reflexivity|].
    destruct (Nat.eqb_spec g f) as [->|Dg]; [|apply IH; assumption].
    exfalso. apply D1. apply in_map_iff. exists (f, c). auto.
  Qed.
  Lemma derivative_ok (m : mdm K) tv uv w sw known : three (cor K m) tv uv w ->
    NoDup (map fst known) -> In (w, sw) known -> ~ In tv (map fst known) -> ~ In uv (map fst known) ->
    exists M, derivative_contribution_to K nb m tv uv known = Some (Some (tv, uv, M)) /\
      forall e r c, (r < nb tv)%nat -> (c < nb uv)%nat ->
        M e r c = mform K nb m e (upd K (upd K (given K known e) tv (unit K r)) uv (unit K c)).
  Proof.
    intros T D I Nt Nu. unfold derivative_contribution_to.
    rewrite (proj2 (mem_In tv (cor K m))) by (apply (three_In _ _ _ _ _ T); auto).
    rewrite (proj2 (mem_In uv (cor K m))) by (apply (three_In _ _ _ _ _ T); auto). cbn [negb].
    rewrite (filter_single _ known (w, sw) D I).
    2:{ simpl. apply mem_In. apply (three_In _ _ _ _ _ T). auto. }
    2:{ intros [g c] Ig Hg. simpl in Hg |- *. apply mem_In, (three_In _ _ _ _ _ T) in Hg.
        apply in_map with (f := fst) in Ig. simpl in Ig. destruct Hg as [->|[->| ->]]; tauto. }
    assert (ndim K m = 3) as -> by (unfold ndim; destruct T as [P _]; rewrite (Permutation_length P); reflexivity).
    cbn [Nat.eqb]. rewrite (proj2 (inhomogeneous_iff K m)) by (eapply three_NoDup, T).
    pose proof (given_In known) as G. destruct T as (P & Dtu & Dtw & Duw) eqn:ET. clear ET.
    pose proof (three_cases (cor K m) tv uv w (conj P (conj Dtu (conj Dtw Duw)))) as Cs.
    assert (forall k, index_of w (cor K m) = Some k ->
      forall f0 f1, drop_at k (cor K m) = [f0; f1] -> exists m2, eliminate K nb m k sw = Some m2 /\ cor K m2 = [f0; f1] /\
      forall e r c, (r < nb f0)%nat -> (c < nb f1)%nat -> arr K m2 e [r; c] =
        mval K (map nb (cor K m)) (arr K m e) (put_at k (sw e) [unit K r; unit K c])) as El.
    { intros k Ek f0 f1 Ed. apply index_of_Some in Ek. pose proof (eliminate_ok K nb m k sw) as E.
      destruct (eliminate K nb m k sw) as [m2|]; [|exfalso; lia]. destruct E as (_ & Ec & Em). exists m2.
      split; [reflexivity|]. rewrite Ed in Ec. split; [exact Ec|]. intros e r c Hr Hc.
      rewrite <- (Em e [unit K r; unit K c]) by (rewrite (Permutation_length P); reflexivity).
      rewrite Ec. symmetry. apply mval_unit2; assumption. }
    assert ((tv =? w)%nat = false) as B1 by (apply Nat.eqb_neq; auto).
    assert ((uv =? w)%nat = false) as B2 by (apply Nat.eqb_neq; auto).
    assert ((tv =? uv)%nat = false) as B3 by (apply Nat.eqb_neq; auto).
    assert ((uv =? tv)%nat = false) as B4 by (apply Nat.eqb_neq; auto).
    assert ((w =? tv)%nat = false) as B5 by (apply Nat.eqb_neq; auto).
    assert ((w =? uv)%nat = false) as B6 by (apply Nat.eqb_neq; auto).
    assert (forall e, given K known e w = sw e) as Gw by (intros e; apply G; assumption).
    destruct Cs as [E|[E|[E|[E|[E|E]]]]]; rewrite E in El |- *; cbn [index_of];
      rewrite ?Nat.eqb_refl, ?B1, ?B2; cbn [option_map];
      (destruct (El _ ltac:(cbn [index_of]; rewrite ?Nat.eqb_refl, ?B1, ?B2; cbn [option_map]; reflexivity) _ _
        ltac:(cbn [drop_at]; reflexivity)) as (m2 & Em & Ec & Ea));
      rewrite Em, Ec; cbn [nat_list_eqb]; rewrite ?Nat.eqb_refl, ?B3, ?B4; cbn [andb];
      unfold sparse_matrix; rewrite Ec; eexists; (split; [reflexivity|]); intros e r c Hr Hc; cbn beta;
      rewrite Ea by assumption; unfold mform; rewrite E; cbn [map put_at]; unfold upd;
      rewrite ?Nat.eqb_refl, ?B1, ?B2, ?B3, ?B4, ?B5, ?B6, Gw; reflexivity.
  Qed.
  Lemma derivative_none (m : mdm K) tv uv known : In tv (cor K m) -> ~ In uv (cor K m) ->
    derivative_contribution_to K nb m tv uv known = Some None.
  Proof.
    intros I N. unfold derivative_contribution_to. rewrite (proj2 (mem_In _ _) I), (proj2 (mem_false _ _) N). reflexivity.
  Qed.
End P.
