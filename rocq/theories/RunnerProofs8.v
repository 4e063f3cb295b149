(** Proofs about RunnerModel: reading a file into a new runner. *)
From Coq Require Import String Ascii List Arith Bool Lia.
From Verif Require Import AssembleModel RunnerModel RunnerSpec RunnerProofs RunnerProofs2 RunnerProofs3 RunnerProofs4 RunnerProofs6.
Import ListNotations.
Local Open Scope nat_scope.
Local Open Scope list_scope.

Definition unquote (t : text) : text := filter (fun c => negb (Ascii.eqb c "'"%char)) t.
Lemma unquote_app a b : unquote (a ++ b) = unquote a ++ unquote b.
Proof. apply filter_app. Qed.
Lemma unquote_clean a : clean a -> unquote a = a.
Proof.
  intros (N & _). induction a as [|c a IH]; [reflexivity|]. cbn [unquote filter]. destruct (Ascii.eqb c "'"%char) eqn:E; [apply Ascii.eqb_eq in E; subst c; destruct N; now left|]. cbn [negb]. f_equal. apply IH. intros H. apply N. now right.
Qed.
Fixpoint inter (l : list text) : text := match l with [] => [] | [a] => a | a :: l => a ++ lit ", " ++ inter l end.
Lemma unquote_joined l : Forall clean l -> unquote (joined l) = inter l.
Proof.
  induction 1 as [|a l C F IH]; [reflexivity|]. destruct l as [|b l]; [cbn [joined inter]; rewrite !unquote_app, (unquote_clean a C); cbn; apply app_nil_r|].
  change (joined (a :: b :: l)) with (lit "'" ++ a ++ lit "', " ++ joined (b :: l)). rewrite !unquote_app, (unquote_clean a C), IH. reflexivity.
Qed.
Lemma starts_sep c t : c <> ","%char -> starts (lit ", ") (c :: t) = false.
Proof. intros N. unfold starts. cbn [lit list_ascii_of_string length firstn teqb]. apply Ascii.eqb_neq in N. rewrite N. reflexivity. Qed.
Lemma until_sep a t : ~ In ","%char a -> until (lit ", ") (a ++ lit ", " ++ t) = (a, Some t).
Proof.
  induction a as [|c a IH]; intros N; [reflexivity|]. cbn [app until]. rewrite starts_sep by (intros ->; apply N; now left). rewrite IH; [reflexivity|intros H; apply N; now right].
Qed.
Lemma until_no_sep a : ~ In ","%char a -> until (lit ", ") a = (a, None).
Proof.
  induction a as [|c a IH]; intros N; [reflexivity|]. cbn [until]. rewrite starts_sep by (intros ->; apply N; now left). rewrite IH; [reflexivity|intros H; apply N; now right].
Qed.
Lemma split_inter l : Forall clean l -> l <> [] -> forall fuel, length l <= S fuel -> split_comma fuel (inter l) = l.
Proof.
  induction 1 as [|a l (_ & C) F IH]; intros D fuel Le; [easy|]. destruct l as [|b l].
  - cbn [inter]. destruct fuel; [reflexivity|]. cbn [split_comma]. rewrite until_no_sep by exact C. reflexivity.
  - destruct fuel as [|fuel]; [cbn in Le; lia|]. change (inter (a :: b :: l)) with (a ++ lit ", " ++ inter (b :: l)). cbn [split_comma]. rewrite until_sep by exact C. rewrite IH; [reflexivity|discriminate|cbn [length] in *; lia].
Qed.
Lemma inter_length l : length l <= S (length (inter l)).
Proof. induction l as [|a [|b l] IH]; [cbn; lia..|]. change (inter (a :: b :: l)) with (a ++ lit ", " ++ inter (b :: l)). rewrite !app_length. cbn [length lit list_ascii_of_string] in *. lia. Qed.
Lemma names_joined l : Forall clean l -> l <> [] -> names_of (joined l) = l.
Proof. intros F D. unfold names_of. fold (unquote (joined l)). rewrite (unquote_joined l F). apply split_inter; [exact F|exact D|apply inter_length]. Qed.
Lemma cut_ok (p a b : text) : length b = 2 -> cut (length p) (p ++ a ++ b) = a.
Proof.
  intros B. unfold cut. rewrite skipn_app, skipn_all, Nat.sub_diag. cbn [skipn app]. rewrite app_length, B. replace (length a + 2 - 2) with (length a) by lia. rewrite firstn_app, firstn_all, Nat.sub_diag. cbn [firstn]. apply app_nil_r.
Qed.
Definition names_read (l : list text) : list text := match l with [a] => [a ++ lit ","] | _ => l end.
Lemma names_tuple p l : Forall clean l -> l <> [] -> names_of (cut (S (length (lit p))) (line (lit p ++ show_tuple l))) = names_read l.
Proof.
  intros F D. destruct l as [|a [|b l]]; [easy| |].
  - cbn [show_tuple names_read]. assert (E : line (lit p ++ lit "('" ++ a ++ lit "',)") = (lit p ++ lit "(") ++ (lit "'" ++ a ++ lit "',") ++ [")"%char; nl]) by (unfold line; rewrite <- !app_assoc; reflexivity).
    rewrite E. replace (S (length (lit p))) with (length (lit p ++ lit "(")) by (rewrite app_length; cbn [length lit list_ascii_of_string]; lia). rewrite cut_ok by reflexivity.
    unfold names_of. fold (unquote (lit "'" ++ a ++ lit "',")). rewrite !unquote_app, (unquote_clean a) by (exact (Forall_inv F)).
    change (unquote (lit "'")) with (@nil ascii). cbn [app]. change (unquote (lit "',")) with (lit ",").
    assert (U : until (lit ", ") (a ++ lit ",") = (a ++ lit ",", None)).
    { destruct (Forall_inv F) as (_ & N). clear -N. induction a as [|c a IH]; [reflexivity|]. cbn [app until]. rewrite starts_sep by (intros ->; apply N; now left). rewrite IH; [reflexivity|intros H; apply N; now right]. }
    destruct (length (a ++ lit ",")) as [|n]; [reflexivity|]. cbn [split_comma]. rewrite U. reflexivity.
  - unfold names_read. unfold show_tuple. assert (E : line (lit p ++ lit "(" ++ joined (a :: b :: l) ++ lit ")") = (lit p ++ lit "(") ++ joined (a :: b :: l) ++ [")"%char; nl]) by (unfold line; rewrite <- !app_assoc; reflexivity).
    rewrite E. replace (S (length (lit p))) with (length (lit p ++ lit "(")) by (rewrite app_length; cbn [length lit list_ascii_of_string]; lia). rewrite cut_ok by reflexivity. apply names_joined; assumption.
Qed.
Section Init.
Variable cf : conf.
Hypothesis L : legal cf.
Hypothesis CI : Forall clean (ins cf).
Hypothesis CO : Forall clean (outs cf).
Hypothesis NO : outs cf <> [].
Lemma init_cons l ls k i o : scan_init (l :: ls) k i o =
    if starts (lit "<input names>") l then scan_init ls (S k) (names_of (cut 17 l)) o
    else if starts (lit "<input criterion>") l then
      match field (lit " : ") l with None => None | Some _ => scan_init ls (S k) i o end
    else if starts (lit "<output names>") l then scan_init ls (S k) i (names_of (cut 18 l))
    else if starts (lit "<kwargs>") l then
      match field (lit " : ") l with None => None | Some _ => scan_init ls (S k) i o end
    else if starts (lit "<RESULTS>") l then Some (k + 3, i, o)
    else scan_init ls (S k) i o.
Proof. reflexivity. Qed.
Lemma init_one l ls k i o : untagged l -> scan_init (l :: ls) k i o = scan_init ls (S k) i o.
Proof.
  intros U. rewrite init_cons. inversion_clear U as [|? ? U1 T]. inversion_clear T as [|? ? U2 T']. inversion_clear T' as [|? ? U3 T]. inversion_clear T as [|? ? U4 T']. inversion_clear T' as [|? ? U5 _]. rewrite U1, U2, U3, U4, U5. reflexivity.
Qed.
Lemma init_skip ls : Forall untagged ls -> forall rest k i o, scan_init (ls ++ rest) k i o = scan_init rest (k + length ls) i o.
Proof.
  induction 1 as [|l ls U F IH]; intros rest k i o; [cbn; rewrite Nat.add_0_r; reflexivity|]. cbn [app]. rewrite init_one, IH by exact U. cbn [length]. f_equal. lia.
Qed.
Lemma init_ok rest : scan_init (top_lines cf ++ tail_lines cf ++ rest) 0 [] [] = Some (length (top_lines cf ++ tail_lines cf), ins cf, names_read (outs cf)).
Proof.
  destruct L as (LI & _ & _ & _ & _ & _ & _ & C). assert (F := field_criterion cf C). rewrite (init_skip _ (top_untagged cf L)). unfold tail_lines at 1. unfold mid_lines, results. cbn [app].
  rewrite init_one by (repeat constructor).
  rewrite init_cons. change (starts (lit "<input names>") (line (lit "<input names> : " ++ show_tuple (ins cf)))) with true. cbv iota.
  change 17 with (S (length (lit "<input names> : "))). rewrite names_tuple by (exact CI || (intros E; rewrite E in LI; discriminate)).
  rewrite init_cons. change (starts (lit "<input names>") (line (lit "<input criterion> : " ++ criterion cf))) with false.
  change (starts (lit "<input criterion>") (line (lit "<input criterion> : " ++ criterion cf))) with true. cbv iota. rewrite F.
  rewrite init_cons. change (starts (lit "<input names>") (line (lit "<output names> : " ++ show_tuple (outs cf)))) with false.
  change (starts (lit "<input criterion>") (line (lit "<output names> : " ++ show_tuple (outs cf)))) with false.
  change (starts (lit "<output names>") (line (lit "<output names> : " ++ show_tuple (outs cf)))) with true. cbv iota.
  change 18 with (S (length (lit "<output names> : "))). rewrite names_tuple by assumption.
  rewrite init_cons. change (starts (lit "<input names>") (line (lit "<kwargs> : " ++ kwargs cf))) with false.
  change (starts (lit "<input criterion>") (line (lit "<kwargs> : " ++ kwargs cf))) with false.
  change (starts (lit "<output names>") (line (lit "<kwargs> : " ++ kwargs cf))) with false.
  change (starts (lit "<kwargs>") (line (lit "<kwargs> : " ++ kwargs cf))) with true. cbv iota.
  assert (K : exists x, field (lit " : ") (line (lit "<kwargs> : " ++ kwargs cf)) = Some x).
  { unfold field, line. rewrite <- app_assoc. change (snd (until (lit " : ") (lit "<kwargs> : " ++ kwargs cf ++ [nl]))) with (Some (kwargs cf ++ [nl])). cbv iota. eexists. reflexivity. }
  destruct K as (x & ->).
  rewrite init_one by (repeat constructor). rewrite init_one by (repeat constructor).
  rewrite init_cons. change (starts (lit "<input names>") (line (lit "<RESULTS> : "))) with false.
  change (starts (lit "<input criterion>") (line (lit "<RESULTS> : "))) with false.
  change (starts (lit "<output names>") (line (lit "<RESULTS> : "))) with false.
  change (starts (lit "<kwargs>") (line (lit "<RESULTS> : "))) with false.
  change (starts (lit "<RESULTS>") (line (lit "<RESULTS> : "))) with true. cbv iota.
  assert (N3 : names_read (ins cf) = ins cf) by (destruct (ins cf) as [|? [|? ?]]; [reflexivity|discriminate LI|reflexivity]). rewrite N3, app_length.
  match goal with |- Some (?x, _, _) = Some (?y, _, _) => replace x with y; [reflexivity|] end. change (length (tail_lines cf)) with 10. lia.
Qed.
Variable V : Type.
Variables fmt_in fmt_out : V -> text.
Variable parse : text -> option V.
Lemma read_file_ok rows : Forall (row_ok V fmt_in fmt_out parse (length (outs cf))) rows ->
  read_file V parse (header cf ++ concat (map (row_text V fmt_in fmt_out) rows)) = Some (ins cf, names_read (outs cf), rows).
Proof.
  intros R. assert (RL := rows_lines V fmt_in fmt_out parse _ rows [] R). rewrite app_nil_r in RL. unfold read_file. rewrite (header_lines cf L), RL, (header_format cf), init_ok.
  rewrite (app_assoc (top_lines cf)), skipn_app, skipn_all, Nat.sub_diag. cbn [skipn app]. destruct L as (I & _). rewrite I.
  assert (N : length (names_read (outs cf)) = length (outs cf)) by (destruct (outs cf) as [|? [|? ?]]; reflexivity). rewrite N, (read_rows_ok V fmt_in fmt_out parse _ _ _ R). cbn. rewrite app_nil_r. reflexivity.
Qed.
End Init.
