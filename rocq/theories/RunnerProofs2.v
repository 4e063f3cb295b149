(** Proofs about RunnerModel: the header and the rows of a file. *)
From Coq Require Import String Ascii List Arith Bool Lia.
From Verif Require Import AssembleModel RunnerModel RunnerSpec RunnerProofs.
Import ListNotations.
Local Open Scope nat_scope.
Local Open Scope list_scope.

(** the header *)
Definition mid_lines (cf : conf) : list text :=
  [[nl]; line (lit "<input names> : " ++ show_tuple (ins cf)); line (lit "<input criterion> : " ++ criterion cf);
   line (lit "<output names> : " ++ show_tuple (outs cf)); line (lit "<kwargs> : " ++ kwargs cf); line (lit "<INFO> : " ++ info cf); [nl]].
Definition results : text := line (lit "<RESULTS> : ").
Definition tail_lines (cf : conf) : list text := mid_lines cf ++ [results; line (columns cf); line (dashes cf)].
Definition top_lines (cf : conf) : list text :=
  map line (head_lines cf) ++ [line (sdir cf); [nl]; line (lit "<solver_source_code> :")] ++ readlines (line (source cf)).
Lemma single_app a b : single a -> single b -> single (a ++ b).
Proof. intros A B H. apply in_app_or in H as [H|H]; auto. Qed.
Lemma single_lit s : existsb (Ascii.eqb nl) (lit s) = false -> single (lit s).
Proof. intros E H. assert (X : existsb (Ascii.eqb nl) (lit s) = true) by (apply existsb_exists; exists nl; split; [exact H|reflexivity]). congruence. Qed.
Ltac slit := apply single_lit; reflexivity.
Lemma single_joined l : Forall single l -> single (joined l).
Proof.
  induction 1 as [|a l A F IH]; [intros []|]. destruct l as [|b l]; [cbn [joined]; repeat apply single_app; [slit|exact A|slit]|].
  change (joined (a :: b :: l)) with (lit "'" ++ a ++ lit "', " ++ joined (b :: l)). repeat apply single_app; [slit|exact A|slit|exact IH].
Qed.
Lemma single_tuple l : Forall single l -> single (show_tuple l).
Proof.
  intros F. assert (J := single_joined l F). destruct l as [|a [|b l]]; [exact (single_lit "()" eq_refl)| |].
  - inversion F; subst. cbn [show_tuple]. repeat apply single_app; [slit|assumption|slit].
  - unfold show_tuple. apply single_app; [slit|apply single_app; [exact J|slit]].
Qed.
Lemma single_pads n l : Forall single l -> single (concat (map (pad n) l)).
Proof. induction 1 as [|a l A F IH]; [intros []|]. cbn [map concat]. apply single_app; [apply pad_single; exact A|exact IH]. Qed.
Lemma single_repeat n c : c <> nl -> single (repeat c n).
Proof. intros N H. apply repeat_spec in H. congruence. Qed.

Section Cf.
Variable cf : conf.
Hypothesis L : legal cf.
Lemma single_columns : single (columns cf).
Proof.
  destruct L as (_ & I & O & _). unfold columns.
  apply single_app; [apply pad_single; slit|]. apply single_app; [apply single_pads; exact I|]. apply single_app; [apply single_pads; exact O|].
  apply single_app; [slit|]. apply single_app; [slit|]. apply single_app; slit.
Qed.
Lemma single_dashes : single (dashes cf).
Proof. unfold dashes. do 3 (apply single_app; [apply single_repeat; discriminate|]). apply single_app; [slit|]. do 2 (apply single_app; [apply single_repeat; discriminate|]). apply single_repeat; discriminate. Qed.
Lemma header_lines t : readlines (header cf ++ t) = top_lines cf ++ tail_lines cf ++ readlines t.
Proof.
  destruct L as (_ & I & O & S & _). assert (SI := single_tuple _ I). assert (SO := single_tuple _ O).
  inversion_clear S as [|? ? S1 T]. inversion_clear T as [|? ? S2 T']. inversion_clear T' as [|? ? S3 T]. inversion_clear T as [|? ? S4 T'].
  inversion_clear T' as [|? ? S5 T]. inversion_clear T as [|? ? S6 T']. inversion_clear T' as [|? ? S7 _].
  assert (B : forall t, readlines (nl :: t) = [nl] :: readlines t) by reflexivity.
  unfold header, top_lines, tail_lines, mid_lines, results, head_lines. cbn [map concat]. rewrite app_nil_r, <- !app_assoc.
  repeat match goal with
  | |- context [readlines (line ?a ++ ?b)] => rewrite (readlines_line a b) by first [slit|assumption|exact single_columns|exact single_dashes|repeat (apply single_app; [first [slit|assumption]|]); first [slit|assumption]]
  | |- context [readlines ([nl] ++ ?b)] => change ([nl] ++ b) with (nl :: b); rewrite B
  | |- context [readlines (line (source cf) ++ ?b)] => rewrite (readlines_lineapp (source cf) b)
  end.
  cbn [app]. rewrite <- ?app_assoc. reflexivity.
Qed.
Lemma scan_skip ls : Forall untagged ls -> forall rest i, scan cf (ls ++ rest) i = scan cf rest (i + length ls).
Proof.
  induction 1 as [|l ls U F IH]; intros rest i; [cbn; rewrite Nat.add_0_r; reflexivity|]. cbn [app scan].
  inversion_clear U as [|? ? U1 T]. inversion_clear T as [|? ? U2 T']. inversion_clear T' as [|? ? U3 T]. inversion_clear T as [|? ? U4 T']. inversion_clear T' as [|? ? U5 _].
  rewrite U1, U2, U3, U4, U5, IH. cbn [length]. f_equal. lia.
Qed.
Lemma scan_one l ls i : untagged l -> scan cf (l :: ls) i = scan cf ls (S i).
Proof. intros U. change (l :: ls) with ([l] ++ ls). rewrite scan_skip by (constructor; [exact U|constructor]). cbn [length]. f_equal. lia. Qed.
Lemma top_untagged : Forall untagged (top_lines cf).
Proof.
  destruct L as (_ & _ & _ & _ & U1 & U2 & U3 & _). unfold top_lines, head_lines. cbn [map app].
  repeat (apply Forall_cons; [try assumption; repeat (constructor; try reflexivity)|]). exact U3.
Qed.
Lemma starts_app p t c : p <> [] -> ~ In c p -> starts p t = false -> starts p (t ++ [c]) = false.
Proof.
  intros D N H. destruct (starts p (t ++ [c])) eqn:E; [|reflexivity]. exfalso. unfold starts in *. apply teqb_eq in E. destruct (Nat.le_gt_cases (length p) (length t)) as [G|G].
  - rewrite firstn_app in E. replace (length p - length t) with 0 in E by lia. cbn [firstn] in E. rewrite app_nil_r in E. apply teqb_eq in E. congruence.
  - rewrite firstn_all2 in E by (rewrite app_length; cbn; lia). apply N. rewrite <- E. apply in_or_app. right. now left.
Qed.
Lemma until_none p t c : p <> [] -> ~ In c p -> has p t = false -> until p (t ++ [c]) = (t ++ [c], None).
Proof.
  intros D N. induction t as [|x t IH]; intros H.
  - cbn [app until]. assert (E : starts p ([] ++ [c]) = false) by (apply starts_app; auto; destruct p; [easy|reflexivity]). cbn [app] in E. rewrite E.
    assert (E' : starts p [] = false) by (destruct p; [easy|reflexivity]). rewrite E'. reflexivity.
  - cbn [has] in H. apply orb_false_iff in H as (H1 & H2). cbn [app until]. assert (E := starts_app p (x :: t) c D N H1). cbn [app] in E. rewrite E, (IH H2). reflexivity.
Qed.
Lemma scan_cons l ls i : scan cf (l :: ls) i =
    if starts (lit "<input names>") l then
      if teqb l (line (lit "<input names> : " ++ show_tuple (ins cf))) then scan cf ls (S i) else None
    else if starts (lit "<input criterion>") l then
      match field (lit " : ") l with
      | None => None
      | Some c => if teqb (criterion cf) (removelast c) then scan cf ls (S i) else None
      end
    else if starts (lit "<output names>") l then
      if teqb l (line (lit "<output names> : " ++ show_tuple (outs cf))) then scan cf ls (S i) else None
    else if starts (lit "<kwargs>") l then scan cf ls (S i)
    else if starts (lit "<RESULTS>") l then Some (i + 3)
    else scan cf ls (S i).
Proof. reflexivity. Qed.
Lemma field_criterion : has (lit " : ") (criterion cf) = false -> field (lit " : ") (line (lit "<input criterion> : " ++ criterion cf)) = Some (line (criterion cf)).
Proof.
  intros C. unfold field, line. rewrite <- app_assoc. change (snd (until (lit " : ") (lit "<input criterion> : " ++ criterion cf ++ [nl]))) with (Some (criterion cf ++ [nl])). cbv iota.
  rewrite until_none; [reflexivity|discriminate| |exact C]. cbn. intuition discriminate.
Qed.
Lemma scan_mid i rest : scan cf (mid_lines cf ++ results :: rest) i = Some (i + 10).
Proof.
  destruct L as (_ & _ & _ & _ & _ & _ & _ & C). assert (F := field_criterion C). unfold mid_lines, results. cbn [app].
  rewrite scan_one by (repeat constructor).
  rewrite scan_cons. change (starts (lit "<input names>") (line (lit "<input names> : " ++ show_tuple (ins cf)))) with true. cbv iota. rewrite teqb_refl.
  rewrite scan_cons. change (starts (lit "<input names>") (line (lit "<input criterion> : " ++ criterion cf))) with false.
  change (starts (lit "<input criterion>") (line (lit "<input criterion> : " ++ criterion cf))) with true. cbv iota.
  rewrite F. unfold line at 1. rewrite removelast_last, teqb_refl.
  rewrite scan_cons. change (starts (lit "<input names>") (line (lit "<output names> : " ++ show_tuple (outs cf)))) with false.
  change (starts (lit "<input criterion>") (line (lit "<output names> : " ++ show_tuple (outs cf)))) with false.
  change (starts (lit "<output names>") (line (lit "<output names> : " ++ show_tuple (outs cf)))) with true. cbv iota. rewrite teqb_refl.
  rewrite scan_cons. change (starts (lit "<input names>") (line (lit "<kwargs> : " ++ kwargs cf))) with false.
  change (starts (lit "<input criterion>") (line (lit "<kwargs> : " ++ kwargs cf))) with false.
  change (starts (lit "<output names>") (line (lit "<kwargs> : " ++ kwargs cf))) with false.
  change (starts (lit "<kwargs>") (line (lit "<kwargs> : " ++ kwargs cf))) with true. cbv iota.
  rewrite scan_one by (repeat constructor). rewrite scan_one by (repeat constructor).
  rewrite scan_cons. change (starts (lit "<input names>") (line (lit "<RESULTS> : "))) with false.
  change (starts (lit "<input criterion>") (line (lit "<RESULTS> : "))) with false.
  change (starts (lit "<output names>") (line (lit "<RESULTS> : "))) with false.
  change (starts (lit "<kwargs>") (line (lit "<RESULTS> : "))) with false.
  change (starts (lit "<RESULTS>") (line (lit "<RESULTS> : "))) with true. cbv iota. cbn [length]. f_equal. lia.
Qed.
Lemma top_results rest : scan cf (top_lines cf ++ mid_lines cf ++ results :: rest) 0 = Some (length (top_lines cf ++ tail_lines cf)).
Proof. rewrite (scan_skip _ top_untagged), scan_mid, app_length. reflexivity. Qed.
Lemma scan_header rest : scan cf (top_lines cf ++ tail_lines cf ++ rest) 0 = Some (length (top_lines cf ++ tail_lines cf)).
Proof. unfold tail_lines at 1. rewrite <- app_assoc. apply top_results. Qed.
Lemma header_format rest : format_ok (top_lines cf ++ tail_lines cf ++ rest) = true.
Proof.
  unfold format_ok. unfold top_lines at 1, head_lines at 1. cbn [map app].
  apply andb_true_iff. split; [reflexivity|]. apply existsb_exists. exists (line (lit "<RESULTS> : ")). split; [|apply teqb_refl].
  apply in_or_app. right. apply in_or_app. left. unfold tail_lines, results. apply in_or_app. right. now left.
Qed.
End Cf.
