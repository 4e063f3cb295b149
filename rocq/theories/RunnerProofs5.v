(** Proofs about RunnerModel: files whose last row, or header, was written in part. *)
From Coq Require Import String Ascii List Arith Bool Lia.
From Verif Require Import AssembleModel RunnerModel RunnerSpec RunnerProofs RunnerProofs2 RunnerProofs3 RunnerProofs4.
Import ListNotations.
Local Open Scope nat_scope.
Local Open Scope list_scope.

(** complete lines and what is left of them when the text is cut *)
Definition whole (l : text) : Prop := exists a, single a /\ l = line a.
Lemma whole_lines t : Forall whole (readlines (line t)).
Proof.
  unfold line. induction t as [|c t IH]; [constructor; [exists []; split; [intros []|reflexivity]|constructor]|]. cbn [app readlines]. destruct (Ascii.eqb c nl) eqn:E.
  - apply Ascii.eqb_eq in E. subst c. constructor; [exists []; split; [intros []|reflexivity]|exact IH].
  - assert (X := concat_readlines (t ++ [nl])). destruct (readlines (t ++ [nl])) as [|l ls]; [destruct t; discriminate X|].
    inversion_clear IH as [|? ? (a & S & ->) F]. constructor; [|exact F]. exists (c :: a). split; [intros [H|H]; [subst c; rewrite Ascii.eqb_refl in E; discriminate|exact (S H)]|reflexivity].
Qed.
Lemma lines_whole ls t : Forall whole ls -> readlines (concat ls ++ t) = ls ++ readlines t.
Proof. induction 1 as [|l ls (a & S & ->) F IH]; [reflexivity|]. cbn [concat]. rewrite <- app_assoc, readlines_line, IH by exact S. reflexivity. Qed.
Definition rest (a : text) : list text := match a with [] => [] | _ => [a] end.
Lemma cut_lines ls : Forall whole ls -> forall p q, q <> [] -> concat ls = p ++ q ->
  exists l1 a b l2, ls = l1 ++ (a ++ b) :: l2 /\ b <> [] /\ single a /\ p = concat l1 ++ a /\ readlines p = l1 ++ rest a.
Proof.
  induction 1 as [|l ls (c & S & ->) F IH]; intros p q Q E; [destruct p; [cbn in E; congruence|discriminate]|].
  cbn [concat] in E. apply prefix_split in E as [(r & -> & E)|(r & N & El & E)].
  - destruct (IH r q Q E) as (l1 & a & b & l2 & -> & B & Sa & -> & Er). exists (line c :: l1), a, b, l2. split; [reflexivity|]. split; [exact B|]. split; [exact Sa|]. split; [cbn [concat]; rewrite app_assoc; reflexivity|].
    rewrite readlines_line, Er by exact S. reflexivity.
  - exists [], p, r, ls. cbn [app concat]. rewrite El. split; [reflexivity|]. split; [exact N|]. assert (Sp : single p).
    { destruct (exists_last N) as (r' & x & ->). unfold line in El. rewrite app_assoc in El. apply app_inj_tail in El as (El & _). intros H. apply S. rewrite El. apply in_or_app. left. exact H. }
    split; [exact Sp|]. split; [reflexivity|]. destruct p as [|x p]; [reflexivity|]. apply readlines_tail; [exact Sp|discriminate].
Qed.
Lemma header_whole cf : legal cf -> Forall whole (top_lines cf ++ tail_lines cf).
Proof.
  intros L. assert (E := header_lines cf L []). assert (W := whole_lines (removelast (header cf))). cbn [readlines] in E. rewrite !app_nil_r in E. rewrite <- E.
  assert (X : exists a, header cf = line a).
  { exists (removelast (header cf)). unfold line. change [nl] with [last [nl] nl]. unfold header, line. rewrite !app_assoc. match goal with |- ?x ++ [nl] = _ => rewrite removelast_last end. reflexivity. }
  destruct X as (a & ->). apply whole_lines.
Qed.

Section Cut.
Variable V : Type.
Variable veqb : V -> V -> bool.
Variables fmt_in fmt_out : V -> text.
Variable parse : text -> option V.
Notation row_text := (row_text V fmt_in fmt_out).
Notation row := (row V).
Notation row_ok := (row_ok V fmt_in fmt_out parse).
Notation text_of rows := (concat (map row_text rows)).
Notation prepare := (prepare V parse).
Section File.
Variable cf : conf.
Hypothesis L : legal cf.
Variable rows : list row.
Hypothesis R : Forall (row_ok (length (outs cf))) rows.
Definition full : nat := 1 + 3 + length (outs cf) + 1 + 3.
(** a last row without all of its words is dropped *)
Lemma torn_dropped pool r p q : row_ok (length (outs cf)) r -> q <> [] -> row_text r = p ++ q -> length (words p) <> full ->
  prepare cf pool (Some (header cf ++ text_of rows ++ p)) = Some (header cf ++ text_of rows, rows, pool ++ map (rin V) rows).
Proof.
  intros Rr Q E N. destruct (cut_row V fmt_in fmt_out parse _ r p q Rr Q E) as (S & _).
  assert (M : read_rows V parse 3 (length (outs cf)) (readlines p) = Some []).
  { destruct p as [|c p]; [reflexivity|]. rewrite readlines_tail by (exact S || discriminate). cbn [read_rows]. fold full. apply Nat.eqb_neq in N. unfold full in *. rewrite N. reflexivity. }
  rewrite (prepare_ok V fmt_in fmt_out parse cf L rows R pool p [] M). cbn [length firstn concat]. rewrite !app_nil_r. reflexivity.
Qed.
(** one with all of its words is kept, with what is there of the last word, and no newline *)
Lemma torn_kept pool r p q : row_ok (length (outs cf)) r -> q <> [] -> row_text r = p ++ q -> length (words p) = full ->
  exists e e', ert V r = e ++ e' /\ e <> [] /\
  prepare cf pool (Some (header cf ++ text_of rows ++ p)) =
  Some (header cf ++ text_of rows ++ p, rows ++ [set_ert V r e], pool ++ map (rin V) (rows ++ [r])).
Proof.
  intros Rr Q E N. destruct (cut_row V fmt_in fmt_out parse _ r p q Rr Q E) as (S & [C|(e & e' & u & Ee & We & W & _)]); [unfold full in N; lia|].
  exists e, e'. split; [exact Ee|]. split; [apply We|]. assert (Re := set_ert_ok V fmt_in fmt_out parse _ r e Rr We).
  assert (P : p <> []) by (intros ->; discriminate N). assert (Rl : readlines p = [p]) by (apply readlines_tail; assumption).
  assert (M : read_rows V parse 3 (length (outs cf)) (readlines p) = Some [set_ert V r e]).
  { rewrite Rl. cbn [read_rows]. unfold full in N. rewrite N, Nat.eqb_refl, W, (read_tokens V fmt_in fmt_out parse _ _ Re). reflexivity. }
  rewrite (prepare_ok V fmt_in fmt_out parse cf L rows R pool p _ M), Rl. cbn [length firstn concat]. rewrite app_nil_r, !map_app. reflexivity.
Qed.
(** then the row written next is on the same line, and both are lost with all that follows *)
Lemma torn_glued pool r p q r2 t : row_ok (length (outs cf)) r -> q <> [] -> row_text r = p ++ q -> length (words p) = full -> row_ok (length (outs cf)) r2 ->
  prepare cf pool (Some (header cf ++ text_of rows ++ p ++ row_text r2 ++ t)) = Some (header cf ++ text_of rows, rows, pool ++ map (rin V) rows).
Proof.
  intros Rr Q E N R2. destruct (cut_row V fmt_in fmt_out parse _ r p q Rr Q E) as (S & [C|(e & e' & u & Ee & We & W & Ep)]); [unfold full in N; lia|].
  assert (M : read_rows V parse 3 (length (outs cf)) (readlines (p ++ row_text r2 ++ t)) = Some []).
  { destruct (row_line V fmt_in fmt_out parse _ r2 R2) as (a & Sa & Ea). assert (X : p ++ row_text r2 ++ t = line (p ++ a) ++ t) by (rewrite Ea; unfold line; rewrite <- !app_assoc; reflexivity).
    rewrite X, readlines_line by (apply single_app; assumption). cbn [read_rows].
    assert (G : full < length (words (line (p ++ a)))).
    { unfold line. rewrite <- app_assoc. change (a ++ [nl]) with (line a). rewrite <- Ea, Ep, <- app_assoc. destruct (pieces_ok V fmt_in fmt_out parse _ r Rr) as (Fp & _).
      rewrite words_spread by exact Fp. rewrite app_length, map_length. assert (Mo := words_mono u (row_text r2)). assert (W2 := row_words V fmt_in fmt_out parse _ r2 [] R2). rewrite app_nil_r in W2. cbn [words] in W2. rewrite app_nil_r in W2. rewrite W2, (tokens_length V fmt_in fmt_out parse _ r2 R2) in Mo.
      assert (Np : length (first_pieces V fmt_in fmt_out r) + 1 = full).
      { unfold full. rewrite <- (tokens_length V fmt_in fmt_out parse _ r Rr), <- pieces_words, map_length. unfold pieces. rewrite app_length. reflexivity. }
      unfold full in *. lia. }
    destruct (Nat.eqb_spec (length (words (line (p ++ a)))) full) as [H|H]; [lia|]. unfold full in H. apply Nat.eqb_neq in H. rewrite H. reflexivity. }
  rewrite (prepare_ok V fmt_in fmt_out parse cf L rows R pool _ [] M). cbn [length firstn concat]. rewrite !app_nil_r. reflexivity.
Qed.
End File.
(** a header without its last line cannot be read *)
Lemma results_not_in cf l : legal cf -> In l (top_lines cf ++ mid_lines cf) -> teqb results l = false.
Proof.
  intros L H. apply in_app_or in H as [H|H].
  - assert (U := top_untagged cf L). rewrite Forall_forall in U. specialize (U l H). destruct (teqb results l) eqn:E; [|reflexivity]. apply teqb_eq in E. subst l.
    unfold untagged in U. rewrite Forall_forall in U. assert (X := U "<RESULTS>"%string). discriminate X. cbn. tauto.
  - unfold mid_lines in H. cbn [In] in H. repeat (destruct H as [<-|H]; [reflexivity|]). destruct H.
Qed.
Lemma header_cut cf pool p q : legal cf -> header cf = p ++ q -> length (line (dashes cf)) <= length q -> prepare cf pool (Some p) = None.
Proof.
  intros L E Q.
  assert (W := header_whole cf L). assert (C := concat_header cf L). unfold tail_lines in W, C.
  set (A := top_lines cf ++ mid_lines cf) in *. assert (EA : top_lines cf ++ mid_lines cf ++ [results; line (columns cf); line (dashes cf)] = A ++ [results; line (columns cf)] ++ [line (dashes cf)]) by (unfold A; rewrite <- app_assoc; reflexivity).
  rewrite EA in W, C. rewrite app_assoc in W, C. apply Forall_app in W as (W & _). rewrite concat_app in C. cbn [concat] in C. rewrite app_nil_r in C.
  assert (X : exists q', concat (A ++ [results; line (columns cf)]) = p ++ q').
  { rewrite E in C. apply prefix_split in C as [(r & Ep & E2)|(r & N & E1 & E2)]; [|exists r; exact E1].
    assert (r = []) as -> by (apply (f_equal (@length ascii)) in E2; rewrite app_length in E2; destruct r; [reflexivity|exfalso; cbn [length] in E2; lia]). exists []. rewrite Ep, !app_nil_r. reflexivity. }
  destruct X as (q' & X). clear E Q q C.
  assert (Y : exists l1 a, readlines p = l1 ++ rest a /\ single a /\ exists l2, A ++ [results; line (columns cf)] = l1 ++ l2 /\ (a <> [] -> l2 <> [])).
  { destruct q' as [|c q'].
    - exists (A ++ [results; line (columns cf)]), []. rewrite app_nil_r in X. split; [rewrite <- X; assert (Z := lines_whole _ [] W); rewrite app_nil_r in Z; exact Z|]. split; [intros []|]. exists []. rewrite app_nil_r. split; [reflexivity|easy].
    - destruct (cut_lines _ W p (c :: q') ltac:(discriminate) X) as (l1 & a & b & l2 & E1 & B & S & _ & Er). exists l1, a. split; [exact Er|]. split; [exact S|]. exists ((a ++ b) :: l2). split; [exact E1|discriminate]. }
  destruct Y as (l1 & a & Er & S & l2 & E1 & N). unfold RunnerModel.prepare, read_contents. rewrite Er.
  destruct (format_ok (l1 ++ rest a)) eqn:Fo; [|reflexivity].
  assert (I : In results (l1 ++ rest a)).
  { unfold format_ok in Fo. destruct (l1 ++ rest a) as [|l0 l]; [discriminate|]. apply andb_true_iff in Fo as (_ & Fo). apply existsb_exists in Fo as (x & Hx & Ex). apply teqb_eq in Ex. subst x. exact Hx. }
  apply in_app_or in I as [I|I].
  2:{ exfalso. destruct a; [destruct I|]. destruct I as [I|[]]. apply S. rewrite I. unfold results, line. apply in_or_app. right. now left. }
  assert (L1 : exists m, l1 = A ++ results :: m /\ length m + length (rest a) <= 1).
  { assert (J : length A < length l1).
    { destruct (Nat.lt_ge_cases (length A) (length l1)) as [G|G]; [exact G|exfalso]. assert (P : l1 = firstn (length l1) A).
      { apply (f_equal (firstn (length l1))) in E1. rewrite !firstn_app, firstn_all, Nat.sub_diag in E1. replace (length l1 - length A) with 0 in E1 by lia. cbn [firstn] in E1. rewrite !app_nil_r in E1. symmetry. exact E1. }
      rewrite P in I. assert (IA : In results A) by (rewrite <- (firstn_skipn (length l1) A); apply in_or_app; left; exact I). assert (T := results_not_in cf _ L IA). rewrite teqb_refl in T. discriminate. }
    assert (Z := E1). apply (f_equal (skipn (length A))) in Z. rewrite !skipn_app, skipn_all, Nat.sub_diag in Z. replace (length A - length l1) with 0 in Z by lia. cbn [skipn app] in Z.
    assert (P : firstn (length A) l1 = A). { apply (f_equal (firstn (length A))) in E1. rewrite !firstn_app, firstn_all, Nat.sub_diag in E1. replace (length A - length l1) with 0 in E1 by lia. cbn [firstn] in E1. rewrite !app_nil_r in E1. symmetry. exact E1. }
    rewrite <- (firstn_skipn (length A) l1), P. destruct (skipn (length A) l1) as [|x m] eqn:Em; [exfalso; apply (f_equal (@length text)) in Em; rewrite skipn_length in Em; change (length (@nil text)) with 0 in Em; lia|].
    cbn [app] in Z. injection Z as Ex Z. exists m. rewrite Ex. split; [reflexivity|]. apply (f_equal (@length text)) in Z. rewrite app_length in Z. cbn [length] in Z. destruct a as [|c a]; cbn [rest length]; [lia|]. specialize (N ltac:(discriminate)). destruct l2; [easy|cbn [length] in Z; lia]. }
  destruct L1 as (m & -> & Lm). assert (Sc : scan cf ((A ++ results :: m) ++ rest a) 0 = Some (length (top_lines cf ++ tail_lines cf))).
  { unfold A. rewrite <- !app_assoc. cbn [app]. apply (top_results cf L). }
  rewrite Sc. assert (Le : length ((A ++ results :: m) ++ rest a) < length (top_lines cf ++ tail_lines cf)).
  { unfold tail_lines, A. rewrite !app_length. cbn [length]. lia. }
  rewrite skipn_all2 by lia. cbn [read_rows length]. rewrite Nat.add_0_r. destruct (Nat.leb_spec (length (top_lines cf ++ tail_lines cf)) (length ((A ++ results :: m) ++ rest a))); [lia|reflexivity].
Qed.
(** a header with a part of its last line is taken, and the row written behind it is lost *)
Lemma header_last cf pool p q : legal cf -> header cf = p ++ q -> q <> [] -> length q < length (line (dashes cf)) ->
  prepare cf pool (Some p) = Some (p, [], pool) /\
  forall r rows, row_ok (length (outs cf)) r -> Forall (row_ok (length (outs cf))) rows ->
  prepare cf pool (Some (p ++ row_text r ++ text_of rows)) = Some (p ++ row_text r ++ text_of rows, rows, pool ++ map (rin V) rows).
Proof.
  intros L E Q0 Q.
  assert (W := header_whole cf L). assert (C := concat_header cf L).
  set (A := top_lines cf ++ mid_lines cf ++ [results; line (columns cf)]). assert (EA : top_lines cf ++ tail_lines cf = A ++ [line (dashes cf)]) by (unfold A, tail_lines; rewrite <- !app_assoc; reflexivity).
  rewrite EA in W, C. apply Forall_app in W as (W & _). rewrite concat_app in C. cbn [concat] in C. rewrite app_nil_r in C. rewrite E in C.
  apply prefix_split in C as [(d & -> & Ed)|(r & N & E1 & E2)]; [|exfalso; apply (f_equal (@length ascii)) in E2; rewrite app_length in E2; destruct r; [easy|cbn [length] in E2; lia]].
  assert (Sd : single d). { destruct (exists_last Q0) as (q' & x & ->). unfold line in Ed. rewrite app_assoc in Ed. apply app_inj_tail in Ed as (Ed & _). intros H. apply (single_dashes cf). rewrite Ed. apply in_or_app. left. exact H. }
  assert (Nd : d <> []) by (intros ->; cbn [app] in Ed; rewrite Ed in Q; lia). clear E.
  assert (G : forall x t rs, read_rows V parse 3 (length (outs cf)) (readlines t) = Some rs -> forall u, readlines u = x :: readlines t ->
    read_contents V parse cf (concat A ++ u) = Some (length A + 1 + length rs, A ++ x :: readlines t, rs)).
  { intros x t rs Hr u Hu. unfold read_contents. rewrite (lines_whole A _ W), Hu.
    assert (Fo : format_ok (A ++ x :: readlines t) = true).
    { unfold A, format_ok. unfold top_lines at 1, head_lines at 1. cbn [map app]. apply andb_true_iff. split; [reflexivity|]. apply existsb_exists. exists results. split; [|apply teqb_refl].
      apply in_or_app. left. apply in_or_app. right. apply in_or_app. right. now left. }
    rewrite Fo. assert (Sc : scan cf (A ++ x :: readlines t) 0 = Some (length A + 1)).
    { unfold A at 1. rewrite <- !app_assoc. cbn [app]. rewrite (top_results cf L). rewrite EA, app_length. reflexivity. }
    rewrite Sc. assert (Sk : skipn (length A + 1) (A ++ x :: readlines t) = readlines t).
    { rewrite skipn_app, skipn_all2 by lia. replace (length A + 1 - length A) with 1 by lia. reflexivity. }
    rewrite Sk. destruct L as (I & _). rewrite I, Hr. reflexivity. }
  split.
  - unfold RunnerModel.prepare. rewrite (G d [] [] eq_refl d) by (apply readlines_tail; assumption). cbn [length readlines]. rewrite Nat.add_0_r.
    match goal with |- context [?x <=? ?y] => replace (x <=? y) with true by (symmetry; apply Nat.leb_le; rewrite app_length; cbn [length]; lia) end. rewrite firstn_all2 by (rewrite app_length; cbn; lia). rewrite concat_app. cbn [concat map]. rewrite !app_nil_r. reflexivity.
  - intros r rows Rr Rs. destruct (row_line V fmt_in fmt_out parse _ r Rr) as (a & Sa & Ea). unfold RunnerModel.prepare. rewrite <- app_assoc.
    assert (Hr : read_rows V parse 3 (length (outs cf)) (readlines (text_of rows)) = Some rows).
    { assert (Y := rows_lines V fmt_in fmt_out parse _ rows [] Rs). rewrite app_nil_r in Y. rewrite Y, (read_rows_ok V fmt_in fmt_out parse _ rows _ Rs). cbn. rewrite app_nil_r. reflexivity. }
    assert (Hl : readlines (d ++ row_text r ++ text_of rows) = line (d ++ a) :: readlines (text_of rows)).
    { rewrite Ea. replace (d ++ line a ++ text_of rows) with (line (d ++ a) ++ text_of rows) by (unfold line; rewrite <- !app_assoc; reflexivity). apply readlines_line. apply single_app; assumption. }
    rewrite (G _ _ _ Hr _ Hl). assert (Y := rows_lines V fmt_in fmt_out parse _ rows [] Rs). rewrite app_nil_r in Y. cbn [readlines] in Y. rewrite app_nil_r in Y. rewrite Y.
    assert (Le : length (A ++ line (d ++ a) :: map row_text rows) = length A + 1 + length rows) by (rewrite app_length; cbn [length]; rewrite map_length; lia).
    rewrite Le, Nat.leb_refl, firstn_all2 by lia. rewrite concat_app. cbn [concat]. rewrite Ea. unfold line. rewrite <- !app_assoc. reflexivity.
Qed.
End Cut.
