(* Two 3D 1-forms of different orientation, hybridity and name on the elements 3
   and 5 of a mesh. *)
From Coq Require Import String.
From Coq Require Import Reals List Lra Arith Bool.
From Verif Require Import DiscModel TriModel FarModel FarSpec FarProofs FarProofs2.
Import ListNotations.
Open Scope R_scope.
Definition fels (m : nat) : list nat := match m with O => [3; 5]%nat | _ => [1%nat] end.
Definition fnb (c s : nat) : nat := 2.
Definition oa : opts := mkOpts true (Some Outer) 0 "a".
Definition ob : opts := mkOpts false (Some Inner) 0 "b".
Definition fa : form := mkForm 1 0 0 oa (Some [(5%nat, [1; 2]); (3%nat, [3; 4])]).
Definition fb : form := mkForm 1 0 0 ob (Some [(3%nat, [10; 20]); (5%nat, [30; 40])]).
Definition fc : form := mkForm 1 0 0 oa (Some [(3%nat, [1; 1])]).
Definition fn : form := mkForm 1 0 0 oa None.
Lemma fa_fb : alike fa fb.
Proof. repeat split. Qed.
Lemma fa_full : full fels fnb fa.
Proof. intros e [<-|[<-|[]]]; eexists; (split; [eexists; split; [reflexivity|]; eexists; reflexivity|reflexivity]). Qed.
Lemma fb_full : full fels fnb fb.
Proof. intros e [<-|[<-|[]]]; eexists; (split; [eexists; split; [reflexivity|]; eexists; reflexivity|reflexivity]). Qed.
Lemma fa_local : exists l, f_local fa = Some l.
Proof. eexists. reflexivity. Qed.
Lemma fb_local : exists l, f_local fb = Some l.
Proof. eexists. reflexivity. Qed.
Lemma fc_misses c : ~ has fc 5 c.
Proof. intros (l & L & k & K). injection L as <-. discriminate. Qed.
Lemma order_refuted : ~ (forall els nbasis a b f g, add_cscg els nbasis a b = Some f -> add_cscg els nbasis b a = Some g -> options_of f = options_of g).
Proof. intros H. specialize (H fels fnb fa fb _ _ eq_refl eq_refl). discriminate. Qed.
Lemma orientation_refuted : ~ (forall els nbasis a b f, add_cscg els nbasis a b = Some f -> o_orient (f_opts a) = o_orient (f_opts b)).
Proof. intros H. specialize (H fels fnb fa fb _ eq_refl). discriminate. Qed.
Lemma hybrid_refuted : ~ (forall els nbasis a b f, o_hybrid (f_opts a) = o_hybrid (f_opts b) -> add_tri els nbasis a b = Some f -> o_hybrid (f_opts f) = o_hybrid (f_opts a)).
Proof. intros H. specialize (H fels fnb fa fa _ eq_refl eq_refl). discriminate. Qed.
