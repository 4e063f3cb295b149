(** Proofs about RunnerModel: texts, lines and words. *)
From Coq Require Import String Ascii List Arith Bool Lia DecimalString DecimalNat.
From Verif Require Import AssembleModel RunnerModel RunnerSpec CochainProofs5.
Import ListNotations.
Local Open Scope nat_scope.
Local Open Scope list_scope.

Lemma teqb_eq a : forall b, teqb a b = true <-> a = b.
Proof.
  induction a as [|c a IH]; intros [|d b]; cbn [teqb]; try (split; congruence).
  rewrite andb_true_iff, IH, Ascii.eqb_eq. split; [intros (-> & ->); reflexivity|intros H; injection H; auto].
Qed.
Lemma teqb_refl a : teqb a a = true.
Proof. apply teqb_eq. reflexivity. Qed.
(** lines *)
Lemma concat_readlines t : concat (readlines t) = t.
Proof.
  induction t as [|c t IH]; [reflexivity|]. cbn [readlines]. destruct (Ascii.eqb c nl); [cbn [concat app]; rewrite IH; reflexivity|].
  destruct (readlines t); cbn [concat app] in *; congruence.
Qed.
Lemma readlines_app a b : readlines (a ++ nl :: b) = readlines (a ++ [nl]) ++ readlines b.
Proof.
  induction a as [|c a IH]; [reflexivity|]. cbn [app readlines]. destruct (Ascii.eqb c nl); [rewrite IH; reflexivity|]. rewrite IH.
  destruct (readlines (a ++ [nl])) eqn:E; [|reflexivity]. apply (f_equal (@concat ascii)) in E. rewrite concat_readlines in E. destruct a; discriminate.
Qed.
Lemma readlines_single a : single a -> readlines (a ++ [nl]) = [a ++ [nl]].
Proof.
  induction a as [|c a IH]; intros N; [reflexivity|]. cbn [app readlines]. destruct (Ascii.eqb c nl) eqn:E; [apply Ascii.eqb_eq in E; destruct N; now left|].
  rewrite IH; [reflexivity|]. intros H. apply N. now right.
Qed.
Lemma readlines_line a b : single a -> readlines (line a ++ b) = line a :: readlines b.
Proof. intros N. unfold line. rewrite <- app_assoc. cbn [app]. rewrite readlines_app, readlines_single by exact N. reflexivity. Qed.
Lemma readlines_lineapp a b : readlines (line a ++ b) = readlines (line a) ++ readlines b.
Proof. unfold line. rewrite <- app_assoc. cbn [app]. apply readlines_app. Qed.
Lemma readlines_tail a : single a -> a <> [] -> readlines a = [a].
Proof.
  induction a as [|c a IH]; intros N D; [easy|]. cbn [readlines]. destruct (Ascii.eqb c nl) eqn:E; [apply Ascii.eqb_eq in E; destruct N; now left|].
  destruct a as [|d a]; [reflexivity|]. rewrite IH; [reflexivity|intros H; apply N; now right|discriminate].
Qed.
(** words *)
Lemma words_ws c t : ws c = true -> words (c :: t) = words t.
Proof. intros H. cbn [words]. rewrite H. reflexivity. Qed.
Lemma words_sps n t : words (repeat sp n ++ t) = words t.
Proof. induction n; [reflexivity|]. cbn [repeat app]. rewrite words_ws by reflexivity. exact IHn. Qed.
Lemma words_word w c t : word w -> ws c = true -> words (w ++ c :: t) = w :: words t.
Proof.
  intros (D & F) C. induction F as [|x w X F IH]; [easy|]. destruct w as [|y w].
  - cbn [app words]. rewrite X. cbn [words]. rewrite C. reflexivity.
  - assert (E : words ((y :: w) ++ c :: t) = (y :: w) :: words t) by (apply IH; discriminate). cbn [app] in *.
    change (words (x :: y :: w ++ c :: t)) with (if ws x then words (y :: w ++ c :: t) else if ws y then [x] :: words (y :: w ++ c :: t) else match words (y :: w ++ c :: t) with [] => [[x]] | w :: l => (x :: w) :: l end).
    rewrite X, E, (Forall_inv F). reflexivity.
Qed.
Lemma words_end w : word w -> words w = [w].
Proof.
  intros (D & F). induction F as [|x w X F IH]; [easy|]. destruct w as [|y w]; [cbn; rewrite X; reflexivity|].
  change (words (x :: y :: w)) with (if ws x then words (y :: w) else if ws y then [x] :: words (y :: w) else match words (y :: w) with [] => [[x]] | w :: l => (x :: w) :: l end).
  rewrite X, IH by discriminate. rewrite (Forall_inv F). reflexivity.
Qed.
Lemma words_pad n w c t : word w -> ws c = true -> words (pad n w ++ c :: t) = w :: words t.
Proof.
  intros W C. unfold pad. rewrite <- app_assoc. destruct (n - length w) as [|k]; [apply words_word; assumption|]. cbn [repeat app].
  rewrite words_word by (exact W || reflexivity). rewrite words_sps, words_ws by exact C. reflexivity.
Qed.
Lemma word_nl w : word w -> single w.
Proof. intros (_ & F) H. rewrite Forall_forall in F. specialize (F _ H). discriminate F. Qed.
Lemma pad_single n w : single w -> single (pad n w).
Proof. intros S H. apply in_app_or in H as [H|H]; [exact (S H)|]. apply repeat_spec in H. discriminate. Qed.
(** indices *)
Lemma dec_word n : word (RunnerModel.dec n).
Proof.
  split; [apply dec_nonempty|]. apply Forall_forall. intros c H. apply digits in H. unfold digit in H. cbn in H. repeat (destruct H as [<-|H]; [reflexivity|]). destruct H.
Qed.
Lemma undec_dec n : undec (RunnerModel.dec n) = Some n.
Proof.
  assert (E := dec_nonempty n). unfold undec, RunnerModel.dec, lit. destruct (chars (dec n)) as [|c l] eqn:D; [easy|]. rewrite <- D, string_of_list_ascii_of_string.
  rewrite NilEmpty.usu. cbn [option_map]. f_equal. apply Unsigned.of_to.
Qed.
