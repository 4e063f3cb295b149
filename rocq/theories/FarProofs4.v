(* The sums, differences and multiples of forms under their own names, with the
   options and names of the results. *)
From Coq Require Import String.
From Coq Require Import Reals List Arith Bool.
From Verif Require Import DiscModel TriModel FarModel FarSpec FarProofs.
Import ListNotations.
Open Scope R_scope.
Section N.
Variables (els : nat -> list nat) (nbasis : nat -> nat -> nat).
Lemma combine_named op sg a b : alike a b -> full els nbasis a -> full els nbasis b -> (exists l, f_local a = Some l) -> (exists l, f_local b = Some l) ->
  exists f, combine_forms els nbasis op sg a b = Some f /\ result_of els nbasis op a b f /\ options_of f = options_of a /\ o_name (f_opts f) = (o_name (f_opts a) ++ sg ++ o_name (f_opts b))%string.
Proof.
  intros K FA FB LA LB. destruct (combine_forms_ok els nbasis op sg a b K FA FB LA LB) as (f & F & Kf & O & N & Fu & L & V).
  exists f. repeat split; try assumption; apply Kf.
Qed.
Lemma tri_opts op a b f : combine_tri els nbasis op a b = Some f -> f_opts f = shadow_opts (f_opts a).
Proof.
  unfold combine_tri. destruct (same_kind a b); [|discriminate]. destruct (loop _ _) as [d|]; [|discriminate].
  destruct (set_local_tri _ _ d) as [d'|]; [|discriminate]. intros E. injection E as <-. reflexivity.
Qed.
Lemma tri_named op a b : alike a b -> full els nbasis a -> full els nbasis b -> (exists l, f_local a = Some l) -> (exists l, f_local b = Some l) ->
  exists f, combine_tri els nbasis op a b = Some f /\ result_of els nbasis op a b f /\
    options_of f = (false, o_orient (f_opts a), o_numbering (f_opts a)) /\ o_name (f_opts f) = ("shadow-of-" ++ o_name (f_opts a))%string.
Proof.
  intros K FA FB LA LB. destruct (combine_tri_ok els nbasis op a b K FA FB LA LB) as (f & F & Kf & Fu & L & V).
  exists f. split; [exact F|]. apply tri_opts in F. unfold options_of. rewrite F. repeat split; try assumption; apply Kf.
Qed.
Theorem named_ok a b : alike a b -> full els nbasis a -> full els nbasis b -> (exists l, f_local a = Some l) -> (exists l, f_local b = Some l) ->
  (exists f, add_cscg els nbasis a b = Some f /\ result_of els nbasis Rplus a b f /\ options_of f = options_of a /\ o_name (f_opts f) = (o_name (f_opts a) ++ "+" ++ o_name (f_opts b))%string) /\
  (exists f, sub_3d els nbasis a b = Some f /\ result_of els nbasis Rminus a b f /\ options_of f = options_of a /\ o_name (f_opts f) = (o_name (f_opts a) ++ "-" ++ o_name (f_opts b))%string) /\
  (exists f, add_tri els nbasis a b = Some f /\ result_of els nbasis Rplus a b f /\ options_of f = (false, o_orient (f_opts a), o_numbering (f_opts a)) /\ o_name (f_opts f) = ("shadow-of-" ++ o_name (f_opts a))%string) /\
  (exists f, sub_tri els nbasis a b = Some f /\ result_of els nbasis Rminus a b f /\ options_of f = (false, o_orient (f_opts a), o_numbering (f_opts a)) /\ o_name (f_opts f) = ("shadow-of-" ++ o_name (f_opts a))%string).
Proof.
  intros K FA FB LA LB. split; [exact (combine_named Rplus "+" a b K FA FB LA LB)|]. split; [exact (combine_named Rminus "-" a b K FA FB LA LB)|].
  split; [exact (tri_named Rplus a b K FA FB LA LB)|exact (tri_named Rminus a b K FA FB LA LB)].
Qed.
Lemma with_name c m s o l f : with_local nbasis c m s o l = Some f -> f_opts f = o.
Proof. unfold with_local. destruct l as [d|]; [|discriminate]. destruct (set_local _ d); [|discriminate]. intros E. injection E as <-. reflexivity. Qed.
Theorem product_names t r a f :
  (rmul_3d els nbasis (Number t r) a = Some f -> o_name (f_opts f) = (t ++ o_name (f_opts a))%string) /\
  (rmul_2d els nbasis (Number t r) a = Some f -> o_name (f_opts f) = (t ++ "*" ++ o_name (f_opts a))%string).
Proof.
  split; intros E.
  - unfold rmul_3d in E. destruct (f_local a); [|discriminate]. apply with_name in E. rewrite E. reflexivity.
  - unfold rmul_2d in E. apply with_name in E. rewrite E. reflexivity.
Qed.
End N.
