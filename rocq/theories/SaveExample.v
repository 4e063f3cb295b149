(** A text of dictionaries that tells them apart, for the examples of SaveProps. *)
From Coq Require Import String Ascii List Arith Bool Lia.
From Verif Require Import Prelude CochainModel SaveModel SaveSpec.
Import ListNotations.
Local Open Scope nat_scope.
Local Open Scope list_scope.

Definition enc_text (s : string) : list ascii := flat_map (fun c => ["'"%char; c]) (list_ascii_of_string s) ++ [";"%char].
Definition enc_atom (a : atom) : list ascii := match a with Text s => "T"%char :: enc_text s | Other n => "N"%char :: repeat "|"%char n ++ [";"%char] end.
Definition enc (d : dict) : list ascii := flat_map (fun kv => enc_text (fst kv) ++ enc_atom (snd kv)) d.
Definition repr (d : dict) : string := string_of_list_ascii (enc d).

Lemma enc_text_inj s : forall s' r r', enc_text s ++ r = enc_text s' ++ r' -> s = s' /\ r = r'.
Proof.
  unfold enc_text. induction s as [|c s IH]; intros [|c' s'] r r' H; cbn in H.
  - injection H as <-. split; reflexivity.
  - discriminate.
  - discriminate.
  - injection H as <- H. destruct (IH s' r r' H) as [<- <-]. split; reflexivity.
Qed.
Lemma bars n : forall n' r r', repeat "|"%char n ++ ";"%char :: r = repeat "|"%char n' ++ ";"%char :: r' -> n = n' /\ r = r'.
Proof.
  induction n as [|n IH]; intros [|n'] r r' H; cbn in H; try discriminate.
  - injection H as <-. split; reflexivity.
  - injection H as H. destruct (IH n' r r' H) as [<- <-]. split; reflexivity.
Qed.
Lemma enc_atom_inj a a' r r' : enc_atom a ++ r = enc_atom a' ++ r' -> a = a' /\ r = r'.
Proof.
  destruct a as [s|n], a' as [s'|n']; cbn [enc_atom app]; intros H; try discriminate.
  - injection H as H. destruct (enc_text_inj _ _ _ _ H) as [<- <-]. split; reflexivity.
  - injection H as H. rewrite <- !app_assoc in H. cbn [app] in H. destruct (bars _ _ _ _ H) as [<- <-]. split; reflexivity.
Qed.
Lemma enc_nonempty k a d : enc ((k, a) :: d) <> [].
Proof. cbn. unfold enc_text. destruct (list_ascii_of_string k); discriminate. Qed.
Lemma enc_inj d : forall d', enc d = enc d' -> d = d'.
Proof.
  induction d as [|[k a] d IH]; intros [|[k' a'] d'] H; [reflexivity|symmetry in H; exfalso; exact (enc_nonempty _ _ _ H)|exfalso; exact (enc_nonempty _ _ _ H)|].
  cbn [enc flat_map fst snd] in H. rewrite <- !app_assoc in H. destruct (enc_text_inj _ _ _ _ H) as [<- H']. destruct (enc_atom_inj _ _ _ _ H') as [<- H'']. f_equal. exact (IH d' H'').
Qed.
Lemma repr_inj d d' : repr d = repr d' -> d = d'.
Proof. intros H. apply enc_inj. unfold repr in H. rewrite <- (list_ascii_of_string_of_list_ascii (enc d)), H. apply list_ascii_of_string_of_list_ascii. Qed.
Lemma repr_faithful : faithful repr.
Proof. split; intros d d' _ _; apply repr_inj. Qed.
Lemma repr_nonempty d : d <> [] -> repr d <> repr [].
Proof. intros H X. apply H. exact (repr_inj _ _ X). Qed.
