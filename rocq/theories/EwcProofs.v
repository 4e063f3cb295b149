(** Proofs about element-wise cached objects (C14-C17). *)
From Coq Require Import List Arith Bool Lia.
From Coq Require Ascii String.
Import (notations) String.
From Coq Require Import Ascii.
From Verif Require Import Prelude PreludeProofs AssembleModel AssembleProofs EwcModel EwcSpec.
Import ListNotations.

(** * keys *)
Lemma keyb_eq a b : keyb a b = true <-> a = b.
Proof.
  revert b. induction a as [|x a IH]; intros [|y b]; simpl; try (split; [discriminate|discriminate]); [tauto|].
  rewrite andb_true_iff, Ascii.eqb_eq, IH. split; [intros (-> & ->); reflexivity|intros E; injection E; auto].
Qed.

Lemma keyb_neq a b : keyb a b = false <-> a <> b.
Proof. rewrite <- (keyb_eq a b). destruct (keyb a b); split; congruence. Qed.

Lemma starts_spec p s : starts p s = true <-> exists t, s = p ++ t.
Proof.
  revert s. induction p as [|x p IH]; intros s; simpl.
  - split; eauto.
  - destruct s as [|y s]; [split; [discriminate|intros (t & E); discriminate]|].
    rewrite andb_true_iff, Ascii.eqb_eq, IH. split.
    + intros (-> & t & ->). eauto.
    + intros (t & E). injection E as -> ->. eauto.
Qed.

Lemma infix_spec p s : infix p s = true <-> exists a b, s = a ++ p ++ b.
Proof.
  unfold infix. rewrite existsb_exists. split.
  - intros (q & _ & HS). apply starts_spec in HS. destruct HS as (t & E). exists (firstn q s), t. rewrite <- E.
    symmetry. apply firstn_skipn.
  - intros (a & b & ->). exists (length a). split.
    + apply in_seq. rewrite app_length. lia.
    + rewrite skipn_app, skipn_all, Nat.sub_diag. simpl. apply starts_spec. eauto.
Qed.

Lemma app_len_inj {A} (a b c d : list A) : length a = length c -> a ++ b = c ++ d -> a = c /\ b = d.
Proof.
  revert c. induction a as [|x a IH]; intros [|y c] L E; try discriminate; [auto|].
  simpl in *. injection E as -> E. injection L as L. destruct (IH c L E). subst. auto.
Qed.

Definition powCT (k : nat) : key := concat (repeat CT k).
Definition plain (t : key) : Prop := t <> [] /\ ~ In "<"%char t /\ ~ In ">"%char t.
Definition tok (t : key) : Prop := t = CT \/ plain t.
Definition keyed (s : key) : Prop := exists ts, s = concat ts /\ Forall tok ts /\ Exists plain ts.

Lemma no_NC ts : Forall tok ts -> infix NC (concat ts) = false.
Proof.
  intros F. destruct (infix NC (concat ts)) eqn:E; [|reflexivity]. exfalso. apply infix_spec in E.
  destruct E as (a & b & E). revert a E. induction F as [|t ts T F IH]; intros a E.
  - destruct a; discriminate.
  - simpl in E. destruct (le_lt_dec (length t) (length a)) as [L|L].
    + apply (f_equal (skipn (length t))) in E. rewrite skipn_app, skipn_all, Nat.sub_diag in E. simpl in E.
      rewrite skipn_app in E. replace (length t - length a) with 0 in E by lia. apply (IH (skipn (length t) a) E).
    + assert (H : nth_error (t ++ concat ts) (length a) = Some ">"%char).
      { rewrite E, nth_error_app2, Nat.sub_diag by lia. reflexivity. }
      assert (H2 : nth_error (t ++ concat ts) (S (length a)) = Some "N"%char).
      { rewrite E, nth_error_app2 by lia. replace (S (length a) - length a) with 1 by lia. reflexivity. }
      destruct T as [->|(_ & _ & N)].
      * simpl in L. destruct (length a) as [|[|[|[|q]]]]; try discriminate. lia.
      * rewrite nth_error_app1 in H by assumption. apply nth_error_In in H. contradiction.
Qed.

Lemma keyed_not_pow s k : keyed s -> s <> powCT k.
Proof.
  intros (ts & -> & F & X). revert k. induction F as [|t ts T F IH]; intros k E; [inversion X|].
  simpl in E. destruct T as [->|(N & _ & G)].
  - destruct k as [|k]; [discriminate|]. unfold powCT in E. simpl in E. repeat (injection E as E).
    apply (IH) with (k := k); [|assumption].
    inversion X as [? ? (_ & A & _)|]; subst; [|assumption]. exfalso. apply A. simpl. tauto.
  - destruct t as [|c t]; [congruence|]. destruct k as [|k]; [discriminate|]. unfold powCT in E. simpl in E.
    injection E as -> _. apply G. left. reflexivity.
Qed.

Lemma pow_tok k : Forall tok (repeat CT k).
Proof. apply Forall_forall. intros x I. apply repeat_spec in I. left. assumption. Qed.

Lemma pow_no_NC k : infix NC (powCT k) = false.
Proof. apply no_NC, pow_tok. Qed.

Lemma keyed_no_NC s : keyed s -> infix NC s = false.
Proof. intros (ts & -> & F & _). apply no_NC. assumption. Qed.

Lemma comm_pow n : forall r : key, length r <= n -> r ++ CT = CT ++ r -> exists k, r = powCT k.
Proof.
  induction n as [|n IH]; intros r L E.
  - exists 0. destruct r; [reflexivity|simpl in L; lia].
  - destruct r as [|c1 [|c2 [|c3 [|c4 r]]]].
    + exists 0. reflexivity.
    + exfalso. simpl in E. injection E; intros; subst; discriminate.
    + exfalso. simpl in E. injection E; intros; subst; discriminate.
    + exfalso. simpl in E. injection E; intros; subst; discriminate.
    + simpl in E. injection E as -> -> -> -> E. change (r ++ CT = CT ++ r) in E.
      destruct (IH r) as (k & ->); [simpl in L; lia|assumption|]. exists (S k). reflexivity.
Qed.

Lemma repeat_of_CT c : repeat_of c = CT -> exists k, c = powCT k.
Proof.
  unfold repeat_of. destruct (find _ _) as [q|] eqn:F; [|discriminate]. intros E.
  apply find_some in F. destruct F as (I & HS). apply in_seq in I. apply starts_spec in HS. destruct HS as (t & HS).
  assert (Lq : q = 4).
  { apply (f_equal (@length _)) in E. rewrite firstn_length in E. simpl in E. lia. }
  subst q. assert (Ec : c = CT ++ skipn 4 c) by (rewrite <- E at 1; symmetry; apply firstn_skipn).
  set (r := skipn 4 c) in *. rewrite Ec in HS. simpl in HS.
  change (r ++ CT ++ r = (CT ++ r) ++ t) in HS. rewrite app_assoc in HS.
  assert (A : r ++ CT = CT ++ r).
  { apply app_len_inj in HS; [apply HS|rewrite !app_length; lia]. }
  destruct (comm_pow (length r) r (le_n _) A) as (k & Er). exists (S k). rewrite Ec, Er. reflexivity.
Qed.

Section Proofs.
  Variables V W CUS : Type.
  Variable apply : CUS -> V -> option V.
  Variable prog : list (node V W).
  Variable elements : list nat.
  Variable cl : nat -> class.
  Hypothesis SP : sound_prog V W prog elements cl.

  Notation "'den'" := (denotes V W prog).
  Notation heap := (heap V CUS).
  Notation ost := (ost V CUS).

  Lemma args_lt n st f args : nth_error prog n = Some (Op st f args) -> forall a, In a args -> a < n.
  Proof. intros E. apply SP in E. destruct E as (_ & H & _). exact H. Qed.

  Lemma lt_len n nd : nth_error prog n = Some nd -> n < length prog.
  Proof. intros E. apply nth_error_Some. congruence. Qed.

  (** ** pure keys *)
  Fixpoint pkf (fuel n i : nat) : key :=
    match fuel with
    | 0 => []
    | S f =>
      match nth_error prog n with
      | None => []
      | Some (Leaf KG _) => KG i
      | Some (Op KConcat _ args) => concat (map (fun a => pkf f a i) args)
      | Some (Op KFirstTwice _ args) => match args with [] => [] | a :: _ => pkf f a i ++ pkf f a i end
      | Some (Op KBlock _ args) =>
          let c := concat (map (fun a => pkf f a i) args) in
          if infix NC c then NC else if keyb (repeat_of c) CT then CT else c
      end
    end.
  Definition pk n i := pkf (S n) n i.

  Lemma pkf_pk fuel : forall n i, n < fuel -> pkf fuel n i = pk n i.
  Proof.
    assert (G : forall f1 f2 n i, n < f1 -> n < f2 -> pkf f1 n i = pkf f2 n i).
    { induction f1 as [|f1 IH]; intros f2 n i L1 L2; [lia|]. destruct f2 as [|f2]; [lia|]. simpl.
      destruct (nth_error prog n) as [[KG DG|st f args]|] eqn:E; try reflexivity.
      assert (A := args_lt _ _ _ _ E).
      assert (M : map (fun a => pkf f1 a i) args = map (fun a => pkf f2 a i) args).
      { apply map_ext_in. intros a I. apply A in I. apply IH; lia. }
      destruct st; rewrite ?M; try reflexivity.
      destruct args as [|a args]; [reflexivity|]. assert (La := A a (or_introl eq_refl)).
      rewrite (IH f2 a i) by lia. reflexivity. }
    intros n i L. apply G; [assumption|lia].
  Qed.

  Definition cat (args : list nat) (i : nat) : key := concat (map (fun a => pk a i) args).

  Lemma pk_unfold n i : pk n i =
    match nth_error prog n with
    | None => []
    | Some (Leaf KG _) => KG i
    | Some (Op KConcat _ args) => cat args i
    | Some (Op KFirstTwice _ args) => match args with [] => [] | a :: _ => pk a i ++ pk a i end
    | Some (Op KBlock _ args) =>
        if infix NC (cat args i) then NC else if keyb (repeat_of (cat args i)) CT then CT else cat args i
    end.
  Proof.
    unfold pk at 1. simpl. destruct (nth_error prog n) as [[KG DG|st f args]|] eqn:E; try reflexivity.
    assert (A := args_lt _ _ _ _ E).
    assert (M : concat (map (fun a => pkf n a i) args) = cat args i).
    { unfold cat. f_equal. apply map_ext_in. intros a I. apply A in I. apply pkf_pk. assumption. }
    destruct st; rewrite ?M; try reflexivity.
    destruct args as [|a args]; [reflexivity|]. rewrite pkf_pk by (apply A; left; reflexivity). reflexivity.
  Qed.

  Lemma keyed_app a b : (keyed a /\ (keyed b \/ exists k, b = powCT k)) \/ ((exists k, a = powCT k) /\ keyed b) -> keyed (a ++ b).
  Proof.
    intros [((ts & -> & F & X) & [(us & -> & G & Y)|(k & ->)])|((k & ->) & (us & -> & G & Y))].
    - exists (ts ++ us). rewrite concat_app, Forall_app, Exists_app. auto.
    - exists (ts ++ repeat CT k). rewrite concat_app, Forall_app, Exists_app. auto using pow_tok.
    - exists (repeat CT k ++ us). rewrite concat_app, Forall_app, Exists_app. auto using pow_tok.
  Qed.

  Lemma pow_app k l : powCT k ++ powCT l = powCT (k + l).
  Proof. unfold powCT. rewrite repeat_app, concat_app. reflexivity. Qed.

  (** shape of the keys of an object of class c *)
  Definition shape_ok (c : class) (s : key) : Prop :=
    match c with
    | Const => exists k, s = powCT (S k)
    | NoCache => infix NC s = true
    | Keyed => keyed s
    end.

  Lemma infix_app_l p a b : infix p a = true -> infix p (a ++ b) = true.
  Proof. rewrite !infix_spec. intros (x & y & ->). exists x, (y ++ b). rewrite <- !app_assoc. reflexivity. Qed.
  Lemma infix_app_r p a b : infix p b = true -> infix p (a ++ b) = true.
  Proof. rewrite !infix_spec. intros (x & y & ->). exists (a ++ x), y. rewrite <- !app_assoc. reflexivity. Qed.

  Lemma join_cons c c' cs : join (c :: c' :: cs) = join [c; join (c' :: cs)].
  Proof.
    unfold join. simpl. destruct c, c'; simpl; try reflexivity;
      destruct (existsb is_NoCache cs), (forallb is_Const cs); reflexivity.
  Qed.

  Lemma shape_join c d s t : shape_ok c s -> shape_ok d t -> shape_ok (join [c; d]) (s ++ t).
  Proof.
    destruct c, d; simpl; intros A B; try (apply infix_app_l; assumption); try (apply infix_app_r; assumption).
    - destruct A as (k & ->), B as (l & ->). exists (k + S l). rewrite pow_app. f_equal.
    - destruct A as (k & ->). apply keyed_app. right. eauto.
    - destruct B as (l & ->). apply keyed_app. left. eauto.
    - apply keyed_app. auto.
  Qed.

  Lemma shape_cat args i : args <> [] -> (forall a, In a args -> shape_ok (cl a) (pk a i)) ->
    shape_ok (join (map cl args)) (cat args i).
  Proof.
    intros N H. induction args as [|a args IH]; [congruence|]. destruct args as [|b args].
    - unfold cat. simpl. rewrite app_nil_r. assert (A := H a (or_introl eq_refl)).
      destruct (cl a) eqn:E; simpl in *; assumption.
    - change (cat (a :: b :: args) i) with (pk a i ++ cat (b :: args) i).
      change (map cl (a :: b :: args)) with (cl a :: cl b :: map cl args). rewrite join_cons.
      apply shape_join; [apply H; left; reflexivity|]. apply IH; [discriminate|].
      intros c I. apply H. right. assumption.
  Qed.

  Lemma shape_block c s : shape_ok c s ->
    shape_ok c (if infix NC s then NC else if keyb (repeat_of s) CT then CT else s).
  Proof.
    destruct c; simpl.
    - intros (k & ->). rewrite pow_no_NC. destruct (keyb _ _); [exists 0; reflexivity|eauto].
    - intros ->. reflexivity.
    - intros K. rewrite keyed_no_NC by assumption. destruct (keyb (repeat_of s) CT) eqn:E; [|assumption].
      apply keyb_eq, repeat_of_CT in E. destruct E as (k & E). apply keyed_not_pow in E; tauto.
  Qed.

  Lemma block_same c s : shape_ok c s -> c = Keyed -> (if infix NC s then NC else if keyb (repeat_of s) CT then CT else s) = s.
  Proof.
    intros K ->. simpl in K. rewrite keyed_no_NC by assumption. destruct (keyb (repeat_of s) CT) eqn:E; [|reflexivity].
    apply keyb_eq, repeat_of_CT in E. destruct E as (k & E). apply keyed_not_pow in E; tauto.
  Qed.

  Lemma pk_shape i : In i elements -> forall n, n < length prog -> shape_ok (cl n) (pk n i).
  Proof.
    intros Hi n. induction n as [n IH] using lt_wf_ind. intros Hn. rewrite pk_unfold.
    destruct (nth_error prog n) as [nd|] eqn:E; [|apply nth_error_None in E; lia].
    assert (HS := SP n nd E). destruct nd as [KG DG|st f args].
    - destruct (cl n); simpl in *.
      + exists 0. rewrite (proj1 HS i Hi). reflexivity.
      + destruct (HS i Hi) as (a & b & ->). apply infix_spec. exists a, b. reflexivity.
      + destruct HS as ((L & HL & LE) & B & _). exists [KG i]. simpl. rewrite app_nil_r. split; [reflexivity|].
        assert (P : plain (KG i)).
        { split; [|apply B; assumption]. intros X. assert (Y := LE i Hi). rewrite X in Y. simpl in Y. lia. }
        split; [constructor; [right; assumption|constructor]|constructor; assumption].
    - destruct HS as (N & A & HS).
      assert (H : forall a, In a args -> shape_ok (cl a) (pk a i)) by (intros a I; apply IH; [auto|specialize (A a I); lia]).
      destruct st.
      + rewrite HS. apply shape_cat; assumption.
      + destruct HS as (a & b & -> & Ec & _). rewrite Ec. specialize (H a (or_introl eq_refl)).
        destruct (cl a); simpl in *; [|apply infix_app_l; assumption|apply keyed_app; auto].
        destruct H as (k & ->). exists (k + S k). rewrite pow_app. f_equal.
      + rewrite HS. apply shape_block, shape_cat; assumption.
  Qed.

  (** keys of a Keyed or Const object have one length *)
  Lemma pk_length i j : In i elements -> In j elements -> forall n, n < length prog -> cl n <> NoCache ->
    length (pk n i) = length (pk n j) /\ (cl n = Const -> pk n i = pk n j).
  Proof.
    intros Hi Hj n. induction n as [n IH] using lt_wf_ind. intros Hn HC. rewrite !pk_unfold.
    destruct (nth_error prog n) as [nd|] eqn:E; [|apply nth_error_None in E; lia].
    assert (HS := SP n nd E). destruct nd as [KG DG|st f args].
    - destruct (cl n) eqn:EC; simpl in HS.
      + rewrite !(proj1 HS) by assumption. auto.
      + congruence.
      + destruct HS as ((L & _ & LE) & _). rewrite !LE by assumption. split; [reflexivity|discriminate].
    - destruct HS as (N & A & HS).
      assert (H : forall a, In a args -> cl a <> NoCache -> length (pk a i) = length (pk a j) /\ (cl a = Const -> pk a i = pk a j)).
      { intros a I. specialize (A a I). apply IH; lia. }
      assert (SH : forall k a, In k elements -> In a args -> shape_ok (cl a) (pk a k)).
      { intros k a Hk I. specialize (A a I). apply pk_shape; [assumption|lia]. }
      assert (J : join (map cl args) <> NoCache -> length (cat args i) = length (cat args j) /\
                 (join (map cl args) = Const -> cat args i = cat args j)).
      { clear - H. intros JN.
        assert (NN : forall a, In a args -> cl a <> NoCache).
        { intros a I X. apply JN. unfold join.
          replace (existsb _ _) with true; [reflexivity|]. symmetry. apply existsb_exists. exists (cl a).
          split; [apply in_map; assumption|rewrite X; reflexivity]. }
        split.
        - clear JN. induction args as [|a args IHa]; [reflexivity|].
          change (length (pk a i ++ cat args i) = length (pk a j ++ cat args j)). rewrite !app_length.
          rewrite IHa by (intros; first [apply H|apply NN]; try (right; assumption); assumption).
          rewrite (proj1 (H a (or_introl eq_refl) (NN a (or_introl eq_refl)))). reflexivity.
        - intros JC.
          assert (CC : forall a, In a args -> cl a = Const).
          { intros a I. unfold join in JC. destruct (existsb _ _); [discriminate|].
            destruct (forallb _ _) eqn:F; [|discriminate]. rewrite forallb_forall in F.
            specialize (F (cl a) (in_map cl _ _ I)). destruct (cl a); [reflexivity|discriminate F..]. }
          unfold cat. f_equal. apply map_ext_in. intros a I. apply H; auto. }
      destruct st.
      + rewrite HS in *. auto.
      + destruct HS as (a & b & -> & Ec & _). rewrite Ec in *. destruct (H a (or_introl eq_refl) HC) as (H1 & H2).
        rewrite !app_length. split; [lia|]. intros X. rewrite (H2 X). reflexivity.
      + rewrite HS in *. destruct (J HC) as (J1 & J2). destruct (join (map cl args)) eqn:EJ; [|congruence|].
        * rewrite (J2 eq_refl). auto.
        * assert (Si := shape_cat args i N (fun a I => SH i a Hi I)). assert (Sj := shape_cat args j N (fun a I => SH j a Hj I)).
          rewrite EJ in Si, Sj. rewrite (block_same Keyed _ Si eq_refl), (block_same Keyed _ Sj eq_refl).
          split; [assumption|discriminate].
  Qed.

  (** ** values *)
  Lemma den_total w i : forall n, n < length prog -> exists v, den w i n v.
  Proof.
    intros n. induction n as [n IH] using lt_wf_ind. intros Hn.
    destruct (nth_error prog n) as [[KG DG|st f args]|] eqn:E; [..|apply nth_error_None in E; lia].
    - eexists. eapply den_leaf. eassumption.
    - assert (A := args_lt _ _ _ _ E).
      assert (X : exists vs, Forall2 (den w i) args vs).
      { clear E. induction args as [|a args IHa]; [exists []; constructor|].
        destruct (IH a) as (v & Hv); [apply A; left; reflexivity|specialize (A a (or_introl eq_refl)); lia|].
        destruct IHa as (vs & Hvs); [intros b I; apply A; right; assumption|]. exists (v :: vs). constructor; assumption. }
      destruct X as (vs & X). eexists. eapply den_op; eassumption.
  Qed.

  Lemma Forall2_fun {A B} (P Q : A -> B -> Prop) l vs vs' :
    (forall a v v', In a l -> P a v -> Q a v' -> v = v') -> Forall2 P l vs -> Forall2 Q l vs' -> vs = vs'.
  Proof.
    intros H F. revert vs'. induction F as [|a v l vs Hv F IH]; intros vs' G; inversion G; subst; [reflexivity|].
    f_equal; [eapply H; eauto; left; reflexivity|]. apply IH; [|assumption]. intros; eapply H; eauto. right. assumption.
  Qed.

  Lemma den_fun w i : forall n v v', den w i n v -> den w i n v' -> v = v'.
  Proof.
    intros n. induction n as [n IH] using lt_wf_ind. intros v v' D D'.
    inversion D as [n1 KG DG E|n1 st f args vs E F]; subst; inversion D' as [n2 KG' DG' E'|n2 st' f' args' vs' E' F']; subst;
      rewrite E in E'; try discriminate E'; injection E'; intros; subst; [reflexivity|].
    f_equal. eapply Forall2_fun; [|exact F|exact F']. intros a x x' I. apply IH. eapply args_lt; eassumption.
  Qed.

  (** equal keys, equal data *)
  Lemma key_sound i j : In i elements -> In j elements -> forall n, n < length prog -> cl n <> NoCache ->
    pk n i = pk n j -> forall w w' v v', den w i n v -> den w' j n v' -> v = v'.
  Proof.
    intros Hi Hj n. induction n as [n IH] using lt_wf_ind. intros Hn HC EK w w' v v' D D'. rewrite !pk_unfold in EK.
    inversion D as [n1 KG DG E|n1 st f args vs E F]; subst; inversion D' as [n2 KG' DG' E'|n2 st' f' args' vs' E' F']; subst;
      rewrite E in E'; try discriminate E'; injection E'; intros; subst; rewrite E in EK.
    - apply SP in E. destruct (cl n); simpl in E; [apply E; assumption|congruence|].
      destruct E as (_ & _ & E). apply E; assumption.
    - assert (A := args_lt _ _ _ _ E). assert (HS := SP n _ E). simpl in HS. destruct HS as (N & _ & HS).
      f_equal. eapply Forall2_fun; [|exact F|exact F']. intros a x x' I. 
      assert (JK : forall a, In a args' -> cl n = join (map cl args') -> cl a <> NoCache).
      { intros b Ib EJ X. apply HC. rewrite EJ. unfold join.
        replace (existsb _ _) with true; [reflexivity|]. symmetry. apply existsb_exists. exists (cl b).
        split; [apply in_map; assumption|rewrite X; reflexivity]. }
      assert (CK : cl n = join (map cl args') -> cat args' i = cat args' j -> forall a, In a args' -> pk a i = pk a j).
      { intros EJ. assert (JK' : forall a, In a args' -> cl a <> NoCache) by auto. clear - JK' A Hi Hj Hn SP.
        induction args' as [|a args IHa]; intros X b I; [destruct I|].
        change (pk a i ++ cat args i = pk a j ++ cat args j) in X.
        assert (a < n) by (apply A; left; reflexivity).
        apply app_len_inj in X; [|apply pk_length; auto; [lia|apply JK'; left; reflexivity]].
        destruct X as (X & Y). destruct I as [->|I]; [assumption|].
        apply IHa; auto; intros c Ic; [apply A|apply JK']; right; assumption. }
      assert (La : a < n) by (apply A; assumption).
      destruct st'.
      + apply (IH a La ltac:(lia) (JK a I HS)). apply CK; assumption.
      + destruct HS as (b & c & -> & Ec & HS). rewrite Ec in HC.
        apply app_len_inj in EK; [|apply pk_length; auto; specialize (A b (or_introl eq_refl)); lia]. destruct EK as (EK & _).
        destruct I as [<-|[<-|[]]]; [apply (IH b La ltac:(lia) HC EK)|].
        destruct HS as [HS|[HS|HS]]; [congruence| |subst; apply (IH c La ltac:(lia) HC EK)].
        apply (IH c La ltac:(lia)); [congruence|]. apply pk_length; auto; [lia|congruence].
      + apply (IH a La ltac:(lia) (JK a I HS)). apply CK; try assumption.
        assert (SH : forall k a, In k elements -> In a args' -> shape_ok (cl a) (pk a k)).
        { intros k b Hk Ib. apply pk_shape; [assumption|]. specialize (A b Ib). lia. }
        assert (Si := shape_cat args' i N (fun a I => SH i a Hi I)). assert (Sj := shape_cat args' j N (fun a I => SH j a Hj I)).
        destruct (join (map cl args')) eqn:EJ; [|congruence|].
        * (* Const: all operands constant *)
          unfold cat. f_equal. apply map_ext_in. intros b Ib.
          assert (CC : cl b = Const).
          { unfold join in EJ. destruct (existsb _ _); [discriminate|].
            destruct (forallb _ _) eqn:FF; [|discriminate]. rewrite forallb_forall in FF.
            specialize (FF (cl b) (in_map cl _ _ Ib)). destruct (cl b); [reflexivity|discriminate FF..]. }
          apply pk_length; try assumption; [specialize (A b Ib); lia|rewrite CC; discriminate].
        * rewrite (block_same Keyed _ Si eq_refl), (block_same Keyed _ Sj eq_refl) in EK. assumption.
  Qed.

  Lemma const_sound i j : In i elements -> In j elements -> forall n, n < length prog -> cl n = Const ->
    forall w w' v, den w i n v -> den w' j n v.
  Proof.
    intros Hi Hj n Hn C w w' v D. destruct (den_total w' j n Hn) as (v' & D').
    rewrite (key_sound i j Hi Hj n Hn ltac:(congruence) (proj2 (pk_length i j Hi Hj n Hn ltac:(congruence)) C) w w' v v' D D').
    assumption.
  Qed.

  (** ** the invariant *)
  Record node_inv (n : nat) (o : ost) : Prop := {
    i_nc : is_nc _ _ o = true -> cl n = NoCache;
    i_ct : is_ct _ _ o = true -> cl n = Const /\ exists v, ct_dg _ _ o = Some v /\ forall w i, In i elements -> den w i n v;
    i_dg : is_ct _ _ o = false -> ct_dg _ _ o = None;
    i_rep : rep _ _ o = CT -> cl n = Const;
    i_cache : forall k v, In (k, v) (cache _ _ o) ->
        cl n <> NoCache /\ forall w i, In i elements -> pk n i = k -> den w i n v;
    i_kchk : kchk _ _ o = true -> kct _ _ o = false /\ knc _ _ o = false;
    i_kflag : kchk _ _ o = false -> forall f args i, nth_error prog n = Some (Op KBlock f args) -> In i elements ->
        knc _ _ o = infix NC (cat args i) /\ kct _ _ o = negb (infix NC (cat args i)) && keyb (repeat_of (cat args i)) CT }.

  Definition Inv (h : heap) : Prop :=
    (forall n, n < length prog -> node_inv n (h n)) /\ (forall n, operand V W prog n -> cus _ _ (h n) = []).

  (** only the key generator's own flags change *)
  Definition same_but_k (o o' : ost) : Prop :=
    is_nc _ _ o = is_nc _ _ o' /\ is_ct _ _ o = is_ct _ _ o' /\ ct_dg _ _ o = ct_dg _ _ o' /\ chk _ _ o = chk _ _ o' /\
    rep _ _ o = rep _ _ o' /\ cache _ _ o = cache _ _ o' /\ cus _ _ o = cus _ _ o'.
  Lemma same_refl o : same_but_k o o.
  Proof. repeat split. Qed.
  Lemma same_trans a b c : same_but_k a b -> same_but_k b c -> same_but_k a c.
  Proof. unfold same_but_k. intuition congruence. Qed.

  Definition kstep (h h' : heap) (n : nat) : Prop :=
    Inv h' /\ (forall m, same_but_k (h m) (h' m)) /\ (forall m, n <= m -> h' m = h m).

  Lemma hset_same (h : heap) n o : hset _ _ h n o n = o.
  Proof. unfold hset. rewrite Nat.eqb_refl. reflexivity. Qed.
  Lemma hset_other (h : heap) n o m : m <> n -> hset _ _ h n o m = h m.
  Proof. unfold hset. intros D. apply Nat.eqb_neq in D. rewrite D. reflexivity. Qed.

  Lemma kgs_ok (kg' : heap -> nat -> nat -> key * heap) i n args :
    (forall h a, Inv h -> In a args -> exists h', kg' h a i = (pk a i, h') /\ kstep h h' (S a)) ->
    (forall a, In a args -> a < n) ->
    forall h, Inv h -> exists h', kgs _ _ kg' h args i = (cat args i, h') /\ kstep h h' n.
  Proof.
    intros H A. induction args as [|a args IH]; intros h HI.
    - exists h. split; [reflexivity|]. split; [assumption|]. split; [intros; apply same_refl|reflexivity].
    - destruct (H h a HI (or_introl eq_refl)) as (h1 & E1 & I1 & S1 & U1).
      destruct (IH ltac:(intros; apply H; auto; right; assumption) ltac:(intros; apply A; right; assumption) h1 I1) as (h2 & E2 & I2 & S2 & U2).
      exists h2. simpl. rewrite E1, E2. split; [reflexivity|]. split; [assumption|]. split.
      + intros m. eapply same_trans; eauto.
      + intros m L. rewrite U2 by assumption. apply U1. specialize (A a (or_introl eq_refl)). lia.
  Qed.

  Lemma kg_ok i : In i elements -> forall fuel h n, Inv h -> n < length prog -> n < fuel ->
    exists h', kg V W CUS prog fuel h n i = (pk n i, h') /\ kstep h h' (S n).
  Proof.
    intros Hi. induction fuel as [|fuel IH]; intros h n HI Hn Lf; [lia|]. rewrite pk_unfold. simpl.
    assert (ID : kstep h h (S n)) by (split; [assumption|]; split; [intros; apply same_refl|reflexivity]).
    destruct (nth_error prog n) as [[KG DG|st f args]|] eqn:E; [eauto| |eauto].
    assert (A := args_lt _ _ _ _ E).
    assert (H : forall h a, Inv h -> In a args -> exists h', kg V W CUS prog fuel h a i = (pk a i, h') /\ kstep h h' (S a)).
    { intros h0 a H0 I. specialize (A a I). apply IH; [assumption|lia|lia]. }
    destruct st.
    - destruct (kgs_ok _ i n args H A h HI) as (h' & E' & I' & HS' & U'). exists h'. split; [assumption|].
      split; [assumption|]. split; [assumption|]. intros m L. apply U'. lia.
    - destruct args as [|a args]; [eauto|].
      destruct (kgs_ok (kg V W CUS prog fuel) i n [a; a]) with (h := h) as (h' & E' & I' & HS' & U').
      + intros h0 b H0 [<-|[<-|[]]]; (apply H; [assumption|left; reflexivity]).
      + intros b [<-|[<-|[]]]; (apply A; left; reflexivity).
      + assumption.
      + exists h'. split; [|split; [assumption|]; split; [assumption|]; intros m L; apply U'; lia].
        simpl in *. rewrite E'. unfold cat. simpl. rewrite app_nil_r. reflexivity.
    - (* block *)
      assert (X : exists h1, (if kchk _ _ (h n) then
              let (key_out, h') := kgs _ _ (kg V W CUS prog fuel) h args i in
              let o := h' n in
              if infix NC key_out
              then hset _ _ h' n (mkO _ _ (is_nc _ _ o) (is_ct _ _ o) (ct_dg _ _ o) (chk _ _ o) (rep _ _ o) (cache _ _ o) false (kct _ _ o) true (cus _ _ o))
              else if keyb (repeat_of key_out) CT
              then hset _ _ h' n (mkO _ _ (is_nc _ _ o) (is_ct _ _ o) (ct_dg _ _ o) (chk _ _ o) (rep _ _ o) (cache _ _ o) false true (knc _ _ o) (cus _ _ o))
              else hset _ _ h' n (mkO _ _ (is_nc _ _ o) (is_ct _ _ o) (ct_dg _ _ o) (chk _ _ o) (rep _ _ o) (cache _ _ o) false (kct _ _ o) (knc _ _ o) (cus _ _ o))
            else h) = h1 /\ kstep h h1 (S n) /\ kchk _ _ (h1 n) = false).
      { destruct (kchk _ _ (h n)) eqn:EK; [|exists h; auto].
        destruct (kgs_ok _ i n args H A h HI) as (h' & E' & I' & HS' & U'). rewrite E'. cbv zeta.
        assert (EO : h' n = h n) by (apply U'; lia).
        assert (NI := proj1 I' n Hn). destruct (i_kchk _ _ NI) as (K1 & K2); [rewrite EO; assumption|].
        (* flags computed from element i are right for every element *)
        assert (FL : forall j, In j elements -> infix NC (cat args j) = infix NC (cat args i) /\
             (infix NC (cat args i) = false -> keyb (repeat_of (cat args j)) CT = keyb (repeat_of (cat args i)) CT)).
        { intros j Hj. assert (HS := SP n _ E). simpl in HS. destruct HS as (N & _ & HS).
          assert (SH : forall k a, In k elements -> In a args -> shape_ok (cl a) (pk a k)).
          { intros k b Hk Ib. apply pk_shape; [assumption|]. specialize (A b Ib). lia. }
          assert (Si := shape_cat args i N (fun a I => SH i a Hi I)). assert (Sj := shape_cat args j N (fun a I => SH j a Hj I)).
          destruct (join (map cl args)) eqn:EJ.
          - assert (EQ : cat args i = cat args j).
            { unfold cat. f_equal. apply map_ext_in. intros b Ib.
              assert (CC : cl b = Const).
              { unfold join in EJ. destruct (existsb _ _); [discriminate|].
                destruct (forallb _ _) eqn:FF; [|discriminate]. rewrite forallb_forall in FF.
                specialize (FF (cl b) (in_map cl _ _ Ib)). destruct (cl b); [reflexivity|discriminate FF..]. }
              apply pk_length; try assumption; [specialize (A b Ib); lia|rewrite CC; discriminate]. }
            rewrite EQ. auto.
          - simpl in Si, Sj. rewrite Si, Sj. split; [reflexivity|discriminate].
          - simpl in Si, Sj. rewrite !keyed_no_NC by assumption. split; [reflexivity|]. intros _.
            assert (Q : forall s, keyed s -> keyb (repeat_of s) CT = false).
            { intros s K. apply keyb_neq. intros Y. apply repeat_of_CT in Y. destruct Y as (k & Y).
              apply keyed_not_pow in Y; tauto. }
            rewrite !Q by assumption. reflexivity. }
        assert (G : forall ct nc, nc = infix NC (cat args i) ->
            ct = negb (infix NC (cat args i)) && keyb (repeat_of (cat args i)) CT ->
            let o := h' n in
            let h1 := hset _ _ h' n (mkO _ _ (is_nc _ _ o) (is_ct _ _ o) (ct_dg _ _ o) (chk _ _ o) (rep _ _ o) (cache _ _ o) false ct nc (cus _ _ o)) in
            kstep h h1 (S n) /\ kchk _ _ (h1 n) = false).
        { intros ct nc Ec En. cbv zeta. rewrite hset_same. split; [|reflexivity]. split; [split|split].
          - intros m Hm. destruct (Nat.eq_dec m n) as [->|D]; [rewrite hset_same|rewrite hset_other by assumption; apply I'; assumption].
            constructor; simpl; try apply NI.
            + discriminate.
            + intros _ f0 args0 j E0 Hj. rewrite E in E0. injection E0 as <- <-. destruct (FL j Hj) as (F1 & F2).
              rewrite F1, Ec, En. split; [reflexivity|]. destruct (infix NC (cat args i)); [reflexivity|]. rewrite F2; reflexivity.
          - intros m O. destruct (Nat.eq_dec m n) as [->|D]; [rewrite hset_same; simpl|rewrite hset_other by assumption]; apply I'; assumption.
          - intros m. destruct (Nat.eq_dec m n) as [->|D]; [rewrite hset_same; simpl; rewrite EO; repeat split|rewrite hset_other by assumption; apply HS'].
          - intros m L. rewrite hset_other by lia. apply U'. lia. }
        destruct (infix NC (cat args i)) eqn:EN; [|destruct (keyb (repeat_of (cat args i)) CT) eqn:ER];
          (eexists; split; [reflexivity|apply G; simpl; auto]). }
      destruct X as (h1 & EX & (I1 & S1 & U1) & K1).
      match goal with |- exists h', (if kct _ _ (?Y n) then _ else _) = _ /\ _ =>
        assert (EY : Y = h1) by exact EX; rewrite EY; clear EX EY end.
      destruct (i_kflag _ _ (proj1 I1 n Hn) K1 f args i E Hi) as (F1 & F2). rewrite F1, F2.
      destruct (infix NC (cat args i)); simpl.
      + exists h1. split; [reflexivity|]. split; [assumption|]. split; assumption.
      + destruct (keyb (repeat_of (cat args i)) CT); [exists h1; split; [reflexivity|]; split; [assumption|]; split; assumption|].
        destruct (kgs_ok _ i n args H A h1 I1) as (h' & E' & I' & HS' & U'). exists h'. split; [assumption|].
        split; [assumption|]. split; [intros m; eapply same_trans; eauto|]. intros m L. rewrite U' by lia. apply U1. assumption.
  Qed.

  (** ** access *)
  Definition gstep (h h' : heap) (n : nat) : Prop :=
    Inv h' /\ (forall m, cus _ _ (h' m) = cus _ _ (h m)) /\ (forall m, n <= m -> h' m = h m).

  Lemma gstep_refl h n : Inv h -> gstep h h n.
  Proof. split; [assumption|]. split; reflexivity. Qed.
  Lemma gstep_trans a b c n : gstep a b n -> gstep b c n -> gstep a c n.
  Proof.
    intros (_ & C1 & U1) (I2 & C2 & U2). split; [assumption|]. split; [intros; rewrite C2; apply C1|].
    intros m L. rewrite U2 by assumption. apply U1. assumption.
  Qed.
  Lemma gstep_mono a b n m : gstep a b n -> n <= m -> gstep a b m.
  Proof. intros (I1 & C1 & U1) L. split; [assumption|]. split; [assumption|]. intros k Lk. apply U1. lia. Qed.
  Lemma kstep_gstep h h' n : kstep h h' n -> gstep h h' n.
  Proof. intros (I1 & S1 & U1). split; [assumption|]. split; [intros m; symmetry; apply S1|assumption]. Qed.

  Lemma gets_ok (get : heap -> nat -> nat -> option V * heap) w i n args :
    (forall h a, Inv h -> In a args -> exists v h', get h a i = (Some v, h') /\ den w i a v /\ gstep h h' (S a)) ->
    (forall a, In a args -> a < n) ->
    forall h, Inv h -> exists vs h', gets _ _ get h args i = (Some vs, h') /\ Forall2 (den w i) args vs /\ gstep h h' n.
  Proof.
    intros H A. induction args as [|a args IH]; intros h HI.
    - exists [], h. split; [reflexivity|]. split; [constructor|apply gstep_refl; assumption].
    - destruct (H h a HI (or_introl eq_refl)) as (v & h1 & E1 & D1 & G1).
      destruct (IH ltac:(intros; apply H; auto; right; assumption) ltac:(intros; apply A; right; assumption) h1 (proj1 G1))
        as (vs & h2 & E2 & D2 & G2).
      exists (v :: vs), h2. simpl. rewrite E1, E2. split; [reflexivity|]. split; [constructor; assumption|].
      eapply gstep_trans; [|exact G2]. eapply gstep_mono; [exact G1|]. apply A. left. reflexivity.
  Qed.

  (** replacing the state of node n only *)
  Lemma set_node h n o : Inv h -> (n < length prog -> node_inv n o) -> cus _ _ o = cus _ _ (h n) ->
    gstep h (hset _ _ h n o) (S n).
  Proof.
    intros (I1 & I2) HO HC. split; [split|split].
    - intros m Hm. destruct (Nat.eq_dec m n) as [->|D]; [rewrite hset_same; auto|rewrite hset_other by assumption; auto].
    - intros m O. destruct (Nat.eq_dec m n) as [->|D]; [rewrite hset_same, HC; auto|rewrite hset_other by assumption; auto].
    - intros m. destruct (Nat.eq_dec m n) as [->|D]; [rewrite hset_same; auto|rewrite hset_other by assumption; auto].
    - intros m L. apply hset_other. lia.
  Qed.

  Lemma member_spec i : member elements i = true <-> In i elements.
  Proof.
    unfold member. rewrite existsb_exists. split; [intros (x & I & E); apply Nat.eqb_eq in E; subst; assumption|].
    intros I. exists i. split; [assumption|apply Nat.eqb_refl].
  Qed.

  Lemma pow_inj_const n i : In i elements -> n < length prog -> (exists k, pk n i = powCT k) -> cl n = Const.
  Proof.
    intros Hi Hn (k & E). assert (HS := pk_shape i Hi n Hn). rewrite E in HS. destruct (cl n); simpl in HS; [reflexivity| |].
    - rewrite pow_no_NC in HS. discriminate.
    - exfalso. apply (keyed_not_pow _ k HS). reflexivity.
  Qed.

  Lemma lookup_key_In k (l : list (key * V)) v : lookup keyb k l = Some v -> In (k, v) l.
  Proof.
    induction l as [|(k', x) l IH]; simpl; [discriminate|]. destruct (keyb k k') eqn:E.
    - intros X. injection X as <-. apply keyb_eq in E. subst. left. reflexivity.
    - right. auto.
  Qed.

  Lemma getitem_ok : forall fuel w h n i, Inv h -> n < length prog -> In i elements -> n < fuel ->
    exists v h', getitem V W CUS apply prog elements fuel w h n i = (execute_customization _ _ apply (h n) v i, h') /\
                 den w i n v /\ gstep h h' (S n).
  Proof.
    induction fuel as [|fuel IH]; intros w h n i HI Hn Hi Lf; [lia|].
    set (dg := fun h : heap =>
        match nth_error prog n with
        | None => (None, h)
        | Some (Leaf _ DG) => (Some (DG w i), h)
        | Some (Op _ f args) =>
            match gets _ _ (getitem V W CUS apply prog elements fuel w) h args i with
            | (Some vs, h') => (Some (f vs), h')
            | (None, h') => (None, h')
            end
        end).
    assert (DG_ok : forall h, Inv h -> exists v h', dg h = (Some v, h') /\ den w i n v /\ gstep h h' n).
    { intros h0 H0. unfold dg. destruct (nth_error prog n) as [[KG DG|st f args]|] eqn:E.
      - eexists _, h0. split; [reflexivity|]. split; [eapply den_leaf; eassumption|apply gstep_refl; assumption].
      - destruct (gets_ok (getitem V W CUS apply prog elements fuel w) w i n args) with (h := h0) as (vs & h' & E' & D & G).
        + intros h1 a H1 I. assert (La := args_lt _ _ _ _ E a I).
          destruct (IH w h1 a i H1 ltac:(lia) Hi ltac:(lia)) as (v & h2 & E2 & D2 & G2). exists v, h2.
          rewrite E2. unfold execute_customization. rewrite (proj2 H1 a) by (exists n, st, f, args; auto). simpl. auto.
        + exact (args_lt _ _ _ _ E).
        + assumption.
        + rewrite E'. exists (f vs), h'. split; [reflexivity|]. split; [eapply den_op; eassumption|assumption].
      - apply nth_error_None in E. lia. }
    assert (X : exists v h', (if is_nc _ _ (h n) then dg h
          else if is_ct _ _ (h n) then (ct_dg _ _ (h n), h)
          else
            let (ck, h1) := kg V W CUS prog (S fuel) h n i in
            let h2 := if chk _ _ (h1 n) then hset _ _ h1 n (set_chk _ _ (h1 n) ck) else h1 in
            if keyb ck CT || keyb (rep _ _ (h2 n)) CT then
              match ct_dg _ _ (h2 n) with
              | Some _ => (None, h2)
              | None => match dg h2 with
                        | (Some v, h3) => (Some v, hset _ _ h3 n (set_ct _ _ (h3 n) v))
                        | (None, h3) => (None, h3)
                        end
              end
            else if infix NC ck then
              match dg h2 with
              | (Some v, h3) => (Some v, hset _ _ h3 n (set_nc _ _ (h3 n)))
              | (None, h3) => (None, h3)
              end
            else
              match lookup keyb ck (cache _ _ (h2 n)) with
              | Some v => (Some v, h2)
              | None => match dg h2 with
                        | (Some v, h3) => (Some v, hset _ _ h3 n (set_cache _ _ (h3 n) ck v))
                        | (None, h3) => (None, h3)
                        end
              end) = (Some v, h') /\ den w i n v /\ gstep h h' (S n)).
    { assert (NI := proj1 HI n Hn).
      destruct (is_nc _ _ (h n)) eqn:ENC.
      - destruct (DG_ok h HI) as (v & h' & E & D & G). exists v, h'. split; [assumption|]. split; [assumption|].
        eapply gstep_mono; [exact G|lia].
      - destruct (is_ct _ _ (h n)) eqn:ECT.
        + destruct (i_ct _ _ NI ECT) as (_ & v & -> & Dv). exists v, h. split; [reflexivity|].
          split; [apply Dv; assumption|apply gstep_refl; assumption].
        + destruct (kg_ok i Hi (S fuel) h n HI Hn Lf) as (h1 & Ek & K1). rewrite Ek. cbv zeta.
          destruct K1 as (I1 & S1 & U1).
          assert (ECT1 : is_ct _ _ (h1 n) = false) by (rewrite <- (proj1 (proj2 (S1 n))); assumption).
          assert (N1 := proj1 I1 n Hn).
          set (h2 := if chk _ _ (h1 n) then hset _ _ h1 n (set_chk _ _ (h1 n) (pk n i)) else h1).
          assert (G2 : gstep h h2 (S n)).
          { eapply gstep_trans; [apply kstep_gstep; split; [exact I1|]; split; [exact S1|exact U1]|].
            unfold h2. destruct (chk _ _ (h1 n)); [|apply gstep_refl; assumption].
            apply set_node; [assumption| |reflexivity]. intros _. constructor; simpl; try apply N1.
            destruct (infix CT (pk n i)) eqn:EI; [|apply N1]. destruct (keyb (repeat_of (pk n i)) []); [apply N1|].
            intros R. apply repeat_of_CT in R. eapply pow_inj_const; eassumption. }
          assert (ECT2 : is_ct _ _ (h2 n) = false).
          { unfold h2. destruct (chk _ _ (h1 n)); [rewrite hset_same|]; assumption. }
          clearbody h2. assert (I2 := proj1 G2). assert (N2 := proj1 I2 n Hn).
          destruct (keyb (pk n i) CT || keyb (rep _ _ (h2 n)) CT) eqn:EC.
          * assert (CC : cl n = Const).
            { apply orb_true_iff in EC. rewrite !keyb_eq in EC. destruct EC as [EC|EC].
              - apply pow_inj_const with (i := i); try assumption. exists 1. assumption.
              - apply (i_rep _ _ N2). assumption. }
            rewrite (i_dg _ _ N2 ECT2). destruct (DG_ok h2 I2) as (v & h3 & E & D & G3). rewrite E.
            exists v, (hset _ _ h3 n (set_ct _ _ (h3 n) v)). split; [reflexivity|]. split; [assumption|].
            eapply gstep_trans; [exact G2|]. eapply gstep_trans; [eapply gstep_mono; [exact G3|lia]|].
            apply set_node; [apply G3| |reflexivity]. intros _. assert (N3 := proj1 (proj1 G3) n Hn).
            constructor; simpl; try apply N3.
            -- intros _. split; [assumption|]. exists v. split; [reflexivity|]. intros w' j Hj.
               apply (const_sound i j Hi Hj n Hn CC w w' v D).
            -- discriminate.
          * apply orb_false_iff in EC. rewrite !keyb_neq in EC. destruct EC as (EC & ER).
            destruct (infix NC (pk n i)) eqn:EN.
            -- destruct (DG_ok h2 I2) as (v & h3 & E & D & G3). rewrite E.
               exists v, (hset _ _ h3 n (set_nc _ _ (h3 n))). split; [reflexivity|]. split; [assumption|].
               eapply gstep_trans; [exact G2|]. eapply gstep_trans; [eapply gstep_mono; [exact G3|lia]|].
               apply set_node; [apply G3| |reflexivity]. intros _. assert (N3 := proj1 (proj1 G3) n Hn).
               constructor; simpl; try apply N3.
               intros _. assert (HS := pk_shape i Hi n Hn). destruct (cl n); simpl in HS; [|reflexivity|].
               ++ destruct HS as (k & HS). rewrite HS, pow_no_NC in EN. discriminate.
               ++ rewrite keyed_no_NC in EN by assumption. discriminate.
            -- assert (NN : cl n <> NoCache).
               { intros X. assert (HS := pk_shape i Hi n Hn). rewrite X in HS. simpl in HS. congruence. }
               destruct (lookup keyb (pk n i) (cache _ _ (h2 n))) as [v|] eqn:EL.
               ++ exists v, h2. split; [reflexivity|]. split; [|assumption]. apply lookup_key_In in EL.
                  apply (i_cache _ _ N2) in EL. apply EL; [assumption|reflexivity].
               ++ destruct (DG_ok h2 I2) as (v & h3 & E & D & G3). rewrite E.
                  exists v, (hset _ _ h3 n (set_cache _ _ (h3 n) (pk n i) v)). split; [reflexivity|]. split; [assumption|].
                  eapply gstep_trans; [exact G2|]. eapply gstep_trans; [eapply gstep_mono; [exact G3|lia]|].
                  apply set_node; [apply G3| |reflexivity]. intros _. assert (N3 := proj1 (proj1 G3) n Hn).
                  constructor; simpl; try apply N3.
                  intros k x [Q|Q]; [|apply N3; assumption]. injection Q as <- <-. split; [assumption|].
                  intros w' j Hj EK. destruct (den_total w' j n Hn) as (v' & D').
                  rewrite (key_sound i j Hi Hj n Hn NN (eq_sym EK) w w' v v' D D'). assumption. }
    destruct X as (v & h' & EX & D & G). exists v, h'. split; [|split; assumption].
    cbn [getitem]. rewrite (proj2 (member_spec i) Hi). cbn [negb].
    match goal with |- (let '(_, _) := ?Y in _) = _ => assert (EY : Y = (Some v, h')) by exact EX; rewrite EY end.
    unfold execute_customization. rewrite (proj1 (proj2 G) n). reflexivity.
  Qed.

  (** ** histories *)
  Lemma inv0 : Inv (fun _ => ost0 V CUS).
  Proof.
    split; [|reflexivity]. intros n Hn. constructor; simpl; try discriminate; try tauto; auto.
  Qed.

  Lemma lookup_register d e c e' :
    lookup Nat.eqb e' (register CUS d e c) =
    if e' =? e then Some (match lookup Nat.eqb e d with Some l => l | None => [] end ++ [c]) else lookup Nat.eqb e' d.
  Proof.
    induction d as [|(a, cs) d IH]; simpl.
    - destruct (e' =? e); reflexivity.
    - destruct (a =? e) eqn:E; simpl.
      + apply Nat.eqb_eq in E. subst a. rewrite Nat.eqb_refl. destruct (e' =? e) eqn:E'; reflexivity.
      + rewrite IH. assert (E2 : (e =? a) = false) by (rewrite Nat.eqb_sym; assumption). rewrite E2.
        destruct (e' =? a) eqn:E'; [|reflexivity]. apply Nat.eqb_eq in E'. subst a. rewrite E. reflexivity.
  Qed.

  Lemma set_cus_inv n o d : node_inv n o -> node_inv n (set_cus _ _ o d).
  Proof. intros N. constructor; simpl; apply N. Qed.

  Notation run := (run V W CUS apply prog elements).
  Notation step := (step V W CUS apply prog elements).

  Definition reg_of (h : heap) n e : list CUS :=
    match lookup Nat.eqb e (cus _ _ (h n)) with Some l => l | None => [] end.

  Definition reg_step (acc : list CUS) n e (ev : event W CUS) : list CUS :=
    match ev with
    | Customize n' e' c => if (n' =? n) && (e' =? e) then acc ++ [c] else acc
    | Clear n' => if n' =? n then [] else acc
    | Access _ _ _ => acc
    end.

  (** accesses of objects or elements that do not exist *)
  Lemma access_bad h w n i : Inv h -> ~ (n < length prog /\ In i elements) -> 
    let h' := snd (getitem V W CUS apply prog elements (S n) w h n i) in
    Inv h' /\ forall m, cus _ _ (h' m) = cus _ _ (h m).
  Proof.
    intros HI B. cbn [getitem]. destruct (member elements i) eqn:EM; cbn [negb]; [|split; [assumption|reflexivity]].
    apply member_spec in EM. assert (Hn : length prog <= n) by (destruct (le_lt_dec (length prog) n); [assumption|exfalso; apply B; auto]).
    rewrite (proj2 (nth_error_None prog n) Hn). cbn [kg]. rewrite (proj2 (nth_error_None prog n) Hn).
    destruct (is_nc _ _ (h n)); [split; [assumption|reflexivity]|].
    destruct (is_ct _ _ (h n)).
    { destruct (ct_dg _ _ (h n)); (split; [assumption|reflexivity]). }
    assert (G : gstep h (if chk _ _ (h n) then hset _ _ h n (set_chk _ _ (h n) []) else h) (S n)).
    { destruct (chk _ _ (h n)); [|apply gstep_refl; assumption]. apply set_node; [assumption|lia|reflexivity]. }
    cbv zeta. set (h2 := if chk _ _ (h n) then _ else h) in *. clearbody h2. destruct G as (I2 & C2 & _).
    destruct (keyb [] CT || keyb (rep _ _ (h2 n)) CT); [destruct (ct_dg _ _ (h2 n)); (split; assumption)|].
    change (infix NC []) with false. cbv iota.
    destruct (lookup keyb [] (cache _ _ (h2 n))); (split; assumption).
  Qed.

  Lemma step_ok h ev : Inv h -> (forall n e c, ev = Customize n e c -> ~ operand V W prog n) ->
    Inv (step h ev) /\ forall n e, reg_of (step h ev) n e = reg_step (reg_of h n e) n e ev.
  Proof.
    intros HI R. destruct ev as [w n i|n e c|n].
    - simpl. assert (X : let h' := snd (getitem V W CUS apply prog elements (S n) w h n i) in
          Inv h' /\ forall m, cus _ _ (h' m) = cus _ _ (h m)).
      { destruct (le_lt_dec (length prog) n) as [L|L]; [apply access_bad; [assumption|intros (X & _); lia]|].
        destruct (in_dec Nat.eq_dec i elements) as [Hi|Hi]; [|apply access_bad; [assumption|tauto]].
        destruct (getitem_ok (S n) w h n i HI L Hi (Nat.lt_succ_diag_r n)) as (v & h' & E & _ & G).
        cbv zeta. rewrite E. simpl. split; apply G. }
      destruct X as (I' & C'). split; [exact I'|]. intros m e. unfold reg_of.
      change (EwcModel.getitem V W CUS apply prog elements (S n) w h n i) with (getitem V W CUS apply prog elements (S n) w h n i).
      rewrite C'. reflexivity.
    - assert (NO : ~ operand V W prog n) by (eapply R; reflexivity). simpl. split.
      + split.
        * intros m Hm. destruct (Nat.eq_dec m n) as [->|D]; [rewrite hset_same|rewrite hset_other by assumption; apply HI; assumption].
          apply set_cus_inv, HI. assumption.
        * intros m O. rewrite hset_other by (intros ->; contradiction). apply HI. assumption.
      + intros m e'. unfold reg_of. destruct (Nat.eq_dec m n) as [->|D].
        * rewrite hset_same, Nat.eqb_refl. simpl. rewrite lookup_register. rewrite (Nat.eqb_sym e e').
          destruct (e' =? e) eqn:E; [|reflexivity]. apply Nat.eqb_eq in E. subst. reflexivity.
        * rewrite hset_other by assumption. replace (n =? m) with false by (symmetry; apply Nat.eqb_neq; congruence). reflexivity.
    - simpl. split.
      + split.
        * intros m Hm. destruct (Nat.eq_dec m n) as [->|D]; [rewrite hset_same|rewrite hset_other by assumption; apply HI; assumption].
          apply set_cus_inv, HI. assumption.
        * intros m O. destruct (Nat.eq_dec m n) as [->|D]; [rewrite hset_same; reflexivity|rewrite hset_other by assumption; apply HI; assumption].
      + intros m e. unfold reg_of. destruct (Nat.eq_dec m n) as [->|D].
        * rewrite hset_same, Nat.eqb_refl. reflexivity.
        * rewrite hset_other by assumption. replace (n =? m) with false by (symmetry; apply Nat.eqb_neq; congruence). reflexivity.
  Qed.

  Lemma run_ok evs : customizes_roots V W CUS prog evs ->
    Inv (run evs) /\ forall n e, reg_of (run evs) n e = registered W CUS evs n e.
  Proof.
    intros R. unfold EwcModel.run, registered.
    assert (G : forall h acc, Inv h -> (forall n e, reg_of h n e = acc n e) ->
      Inv (fold_left step evs h) /\ forall n e, reg_of (fold_left step evs h) n e = fold_left (fun a ev => reg_step a n e ev) evs (acc n e)).
    { induction evs as [|ev evs IH]; intros h acc HI HA; [split; assumption|].
      cbn [fold_left]. destruct (step_ok h ev HI) as (I1 & R1).
      - intros n e c ->. eapply R. left. reflexivity.
      - destruct (IH ltac:(intros n e c I; eapply R; right; exact I) (step h ev) (fun n e => reg_step (acc n e) n e ev) I1) as (A & B).
        + intros n e. rewrite R1, HA. reflexivity.
        + split; assumption. }
    apply (G (fun _ => ost0 V CUS) (fun _ _ => [])); [apply inv0|reflexivity].
  Qed.

  Theorem access_ok evs w n i :
    customizes_roots V W CUS prog evs -> n < length prog -> In i elements ->
    exists v, den w i n v /\ access V W CUS apply prog elements evs w n i = apply_all V CUS apply (registered W CUS evs n i) v.
  Proof.
    intros R Hn Hi. destruct (run_ok evs R) as (HI & HR).
    destruct (getitem_ok (S n) w (run evs) n i HI Hn Hi (Nat.lt_succ_diag_r n)) as (v & h' & E & D & _).
    exists v. split; [assumption|]. unfold access. rewrite E. simpl. rewrite <- HR. unfold reg_of, execute_customization.
    destruct (lookup Nat.eqb i (cus _ _ (run evs n))); reflexivity.
  Qed.
End Proofs.
