(** Proofs about RunnerModel: what is refused. *)
From Coq Require Import String Ascii List Arith Bool Lia.
From Verif Require Import AssembleModel RunnerModel RunnerSpec RunnerProofs RunnerProofs2 RunnerProofs3 RunnerProofs4 RunnerProofs8.
Import ListNotations.
Local Open Scope nat_scope.
Local Open Scope list_scope.

Lemma names_read_inj l m : Forall clean l -> Forall clean m -> names_read l = names_read m -> l = m.
Proof.
  assert (X : forall a, clean a -> forall b, clean b -> a ++ lit "," <> b).
  { intros a _ b (_ & N) E. apply N. rewrite <- E. apply in_or_app. right. now left. }
  intros A B. destruct l as [|a [|a2 l]], m as [|b [|b2 m]]; cbn [names_read]; intros E; try discriminate; try exact E.
  injection E as E. apply app_inv_tail in E. now subst.
Qed.
Lemma tuple_inj l m : Forall clean l -> Forall clean m -> l <> [] -> m <> [] -> show_tuple l = show_tuple m -> l = m.
Proof.
  intros A B C D E. apply names_read_inj; [exact A|exact B|]. rewrite <- (names_tuple "" l A C), <- (names_tuple "" m B D), E. reflexivity.
Qed.
Lemma line_inj a b : line a = line b -> a = b.
Proof. unfold line. intros E. apply app_inj_tail in E. apply E. Qed.
Lemma refused V parse cf cf' pool t x : legal cf -> Forall clean (ins cf) -> Forall clean (outs cf) -> Forall clean (ins cf') -> Forall clean (outs cf') ->
  outs cf <> [] -> ins cf' <> [] -> outs cf' <> [] -> prepare V parse cf' pool (Some (header cf ++ t)) = Some x ->
  ins cf' = ins cf /\ outs cf' = outs cf /\ criterion cf' = criterion cf.
Proof.
  intros L CI CO CI' CO' NO NI' NO' H. unfold prepare, read_contents in H. rewrite (header_lines cf L), (header_format cf) in H.
  destruct (scan cf' (top_lines cf ++ tail_lines cf ++ readlines t) 0) as [n|] eqn:E; [|discriminate]. clear H.
  assert (NI : ins cf <> []) by (destruct L as (LI & _); intros Z; rewrite Z in LI; discriminate).
  assert (F : field (lit " : ") (line (lit "<input criterion> : " ++ criterion cf)) = Some (line (criterion cf))) by (apply field_criterion, L).
  rewrite (scan_skip cf' _ (top_untagged cf L)) in E. unfold tail_lines in E. unfold mid_lines in E. cbn [app] in E.
  rewrite scan_one in E by (repeat constructor).
  rewrite scan_cons in E. change (starts (lit "<input names>") (line (lit "<input names> : " ++ show_tuple (ins cf)))) with true in E. cbv iota in E.
  destruct (teqb _ _) eqn:E1 in E; [|discriminate E].
  rewrite scan_cons in E. change (starts (lit "<input names>") (line (lit "<input criterion> : " ++ criterion cf))) with false in E.
  change (starts (lit "<input criterion>") (line (lit "<input criterion> : " ++ criterion cf))) with true in E. cbv iota in E. rewrite F in E. cbv iota in E.
  destruct (teqb _ _) eqn:E2 in E; [|discriminate E].
  rewrite scan_cons in E. change (starts (lit "<input names>") (line (lit "<output names> : " ++ show_tuple (outs cf)))) with false in E.
  change (starts (lit "<input criterion>") (line (lit "<output names> : " ++ show_tuple (outs cf)))) with false in E.
  change (starts (lit "<output names>") (line (lit "<output names> : " ++ show_tuple (outs cf)))) with true in E. cbv iota in E.
  destruct (teqb _ _) eqn:E3 in E; [|discriminate E]. clear E.
  apply teqb_eq in E1, E2, E3. apply line_inj, app_inv_head in E1. apply line_inj, app_inv_head in E3. unfold line in E2. rewrite removelast_last in E2.
  split; [symmetry; now apply tuple_inj|]. split; [symmetry; now apply tuple_inj|]. exact E2.
Qed.
Lemma shapes_refused V veqb fmt_in fmt_out parse cf solver clock p fs i0 i1 i2 n st :
  iterate V veqb fmt_in fmt_out parse cf solver clock p fs i0 i1 i2 n = Some st -> Forall2 (fun r s => length r = length s) i0 i1.
Proof.
  unfold iterate. destruct (inputs_ok V i0 i1) eqn:E; [|discriminate]. intros _. unfold inputs_ok in E. apply andb_true_iff in E as (E & F). apply Nat.eqb_eq in E.
  revert i1 E F. induction i0 as [|r i0 IH]; intros [|s i1] E F; try discriminate; [constructor|]. cbn [combine forallb fst snd] in F. apply andb_true_iff in F as (F1 & F). constructor; [apply Nat.eqb_eq; exact F1|apply IH; [now injection E|exact F]].
Qed.
