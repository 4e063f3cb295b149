(** Proofs about RunnerModel: reading of a file, and of a file with a last row written in part. *)
From Coq Require Import String Ascii List Arith Bool Lia.
From Verif Require Import AssembleModel RunnerModel RunnerSpec RunnerProofs RunnerProofs2 RunnerProofs3.
Import ListNotations.
Local Open Scope nat_scope.
Local Open Scope list_scope.

Lemma concat_header cf : legal cf -> concat (top_lines cf ++ tail_lines cf) = header cf.
Proof.
  intros L. assert (H := header_lines cf L []). cbn [readlines] in H. rewrite !app_nil_r in H. rewrite <- H. apply concat_readlines.
Qed.
Lemma words_mono x t : length (words t) <= length (words (x ++ t)).
Proof.
  induction x as [|c x IH]; [reflexivity|]. cbn [app]. etransitivity; [exact IH|]. generalize (x ++ t) as u. intros u. cbn [words]. destruct (ws c); [reflexivity|]. destruct u as [|d u]; [cbn; lia|].
  destruct (ws d); [cbn [length]; lia|]. destruct (words (d :: u)); cbn [length]; lia.
Qed.
Section Read.
Variable V : Type.
Variable veqb : V -> V -> bool.
Variables fmt_in fmt_out : V -> text.
Variable parse : text -> option V.
Notation row_text := (row_text V fmt_in fmt_out).
Notation row := (row V).
Notation row_ok := (row_ok V fmt_in fmt_out parse).
Notation tokens := (tokens V fmt_in fmt_out).
Notation read_rows := (read_rows V parse).
Notation text_of rows := (concat (map row_text rows)).

Lemma row_line nout r : row_ok nout r -> exists a, single a /\ row_text r = line a.
Proof.
  intros R. exists (spread (first_pieces V fmt_in fmt_out r) ++ pad 13 (ert V r)). split.
  - apply single_app; [exact (first_single V fmt_in fmt_out parse nout r R)|]. apply pad_single, word_nl. apply R.
  - rewrite row_spread. unfold pieces, line. rewrite spread_app, spread_one, app_assoc. reflexivity.
Qed.
Lemma rows_lines nout rows t : Forall (row_ok nout) rows -> readlines (text_of rows ++ t) = map row_text rows ++ readlines t.
Proof.
  induction 1 as [|r rows R F IH]; [reflexivity|]. cbn [map concat app]. rewrite <- app_assoc. destruct (row_line nout r R) as (a & S & ->). rewrite readlines_line, IH by exact S. reflexivity.
Qed.
Lemma read_rows_ok nout rows rest : Forall (row_ok nout) rows -> read_rows 3 nout (map row_text rows ++ rest) = option_map (app rows) (read_rows 3 nout rest).
Proof.
  induction 1 as [|r rows R F IH]; [cbn [map app]; destruct (read_rows 3 nout rest); reflexivity|]. cbn [map app RunnerModel.read_rows].
  assert (W := row_words V fmt_in fmt_out parse nout r [] R). rewrite app_nil_r in W. cbn [words] in W. rewrite app_nil_r in W. rewrite W, (tokens_length V fmt_in fmt_out parse nout r R), Nat.eqb_refl, (read_tokens V fmt_in fmt_out parse nout r R), IH. destruct (read_rows 3 nout rest); reflexivity.
Qed.
Lemma read_rows_le nin nout ls : forall rows, read_rows nin nout ls = Some rows -> length rows <= length ls.
Proof.
  induction ls as [|l ls IH]; intros rows; cbn [RunnerModel.read_rows]; [intros H; injection H as <-; auto|]. destruct (_ =? _); [|intros H; injection H as <-; cbn; lia].
  destruct (read_to_rdf V parse nin (words l)) as [r|]; [|discriminate]. destruct (read_rows nin nout ls) as [rs|]; [|discriminate]. cbn [option_map]. intros H. injection H as <-. cbn [length]. specialize (IH _ eq_refl). lia.
Qed.
Section File.
Variable cf : conf.
Hypothesis L : legal cf.
Variable rows : list row.
Hypothesis R : Forall (row_ok (length (outs cf))) rows.
Lemma read_ok t more : read_rows 3 (length (outs cf)) (readlines t) = Some more ->
  read_contents V parse cf (header cf ++ text_of rows ++ t) =
  Some (length (top_lines cf ++ tail_lines cf) + length (rows ++ more), top_lines cf ++ tail_lines cf ++ map row_text rows ++ readlines t, rows ++ more).
Proof.
  intros M. unfold read_contents. rewrite (header_lines cf L), (rows_lines _ _ _ R), (header_format cf), (scan_header cf L).
  rewrite (app_assoc (top_lines cf)), skipn_app, skipn_all, Nat.sub_diag. cbn [skipn app]. destruct L as (I & _). rewrite I, (read_rows_ok _ _ _ R), M. reflexivity.
Qed.
Lemma prepare_ok p t more : read_rows 3 (length (outs cf)) (readlines t) = Some more ->
  prepare V parse cf p (Some (header cf ++ text_of rows ++ t)) =
  Some (header cf ++ text_of rows ++ concat (firstn (length more) (readlines t)), rows ++ more, p ++ map (rin V) (rows ++ more)).
Proof.
  intros M. unfold prepare. rewrite (read_ok _ _ M). assert (E := read_rows_le _ _ _ _ M). rewrite (app_assoc (top_lines cf)). set (H := top_lines cf ++ tail_lines cf).
  destruct (Nat.leb_spec (length H + length (rows ++ more)) (length (H ++ map row_text rows ++ readlines t))) as [G|G]; [|exfalso; rewrite !app_length, map_length in G; lia].
  repeat f_equal. rewrite firstn_app, (firstn_all2 H) by lia. replace (length H + length (rows ++ more) - length H) with (length rows + length more) by (rewrite app_length; lia).
  rewrite firstn_app, (firstn_all2 (map row_text rows)) by (rewrite map_length; lia). rewrite map_length. replace (length rows + length more - length rows) with (length more) by lia.
  rewrite !concat_app. unfold H. rewrite <- (concat_header cf L). reflexivity.
Qed.
Lemma prepare_rows p : prepare V parse cf p (Some (header cf ++ text_of rows)) = Some (header cf ++ text_of rows, rows, p ++ map (rin V) rows).
Proof. assert (E := prepare_ok p [] [] eq_refl). cbn [readlines firstn length concat] in E. rewrite !app_nil_r in E. exact E. Qed.
End File.

(** rows cut *)
Notation set_ert := (set_ert V).
Lemma set_ert_ok nout r e : row_ok nout r -> word e -> row_ok nout (set_ert r e).
Proof. intros (A & B & C & D & E & F & _) W. exact (conj A (conj B (conj C (conj D (conj E (conj F W)))))). Qed.
Lemma word_prefix a b : a <> [] -> word (a ++ b) -> word a.
Proof. intros D (_ & F). split; [exact D|]. apply Forall_app in F. apply F. Qed.
Lemma gap_prefix (a b : text) : Forall (fun c => ws c = true) (a ++ b) -> words a = [].
Proof. intros F. apply Forall_app in F as (F & _). rewrite <- (app_nil_r a), words_gaps by exact F. reflexivity. Qed.
Lemma words_then u g : word u -> Forall (fun c => ws c = true) g -> words (u ++ g) = [u].
Proof. intros W F. destruct g as [|c g]; [rewrite app_nil_r; apply words_end; exact W|]. inversion_clear F. rewrite words_word by assumption. rewrite <- (app_nil_r g), words_gaps by assumption. reflexivity. Qed.
Lemma cut_row nout r p q : row_ok nout r -> q <> [] -> row_text r = p ++ q ->
  single p /\
  (length (words p) < 1 + 3 + nout + 1 + 3 \/
   exists e e' u, ert V r = e ++ e' /\ word e /\ words p = tokens (set_ert r e) /\ p = spread (first_pieces V fmt_in fmt_out r) ++ u).
Proof.
  intros R Q E. destruct (pieces_ok V fmt_in fmt_out parse nout r R) as (F & La). split.
  - destruct (row_line nout r R) as (a & S & E'). rewrite E' in E. unfold line in E. destruct (exists_last Q) as (q' & c & ->). rewrite app_assoc in E. apply app_inj_tail in E as (-> & _). intros H. apply S. apply in_or_app. left. exact H.
  - rewrite row_spread in E. assert (FP : Forall piece (pieces V fmt_in fmt_out r)) by (apply Forall_app; split; [exact F|constructor; [exact La|constructor]]).
    assert (N : length (pieces V fmt_in fmt_out r) = 1 + 3 + nout + 1 + 3) by (rewrite <- (tokens_length V fmt_in fmt_out parse nout r R), <- pieces_words, map_length; reflexivity).
    destruct (spread_cut _ FP p q Q E) as (l1 & w & g & l2 & u & El & -> & C).
    assert (F1 : Forall piece l1 /\ piece (w, g)) by (rewrite El in FP; apply Forall_app in FP as (F1 & F2); split; [exact F1|exact (Forall_inv F2)]). destruct F1 as (F1 & (Ww & (Gn & Gf))). cbn [fst snd] in Ww, Gn, Gf.
    assert (Wu : u = [] \/ exists e e', w = e ++ e' /\ word e /\ words u = [e]).
    { destruct C as [C|[(w' & s & E1 & D1 & D2 & ->)|(g' & s & E1 & D1 & ->)]]; [left; exact C|right..].
      - exists w', s. assert (W' : word w') by (apply (word_prefix w' s D1); rewrite <- E1; exact Ww). repeat split; try assumption; try apply W'. apply words_end. exact W'.
      - exists w, []. rewrite app_nil_r. repeat split; try apply Ww. apply words_then; [exact Ww|]. rewrite E1 in Gf. apply Forall_app in Gf. apply Gf. }
    rewrite words_spread by exact F1. rewrite app_length, map_length. rewrite El, app_length in N. cbn [length] in N. destruct l2 as [|y l2].
    + unfold pieces in El. apply app_inj_tail in El as (<- & El'). destruct Wu as [->|(e & e' & Ew & We & Wu)]; [left; cbn [words length] in *; lia|]. right. exists e, e', u.
      unfold padded in El'. injection El' as Ew' _. split; [rewrite Ew'; exact Ew|]. split; [exact We|]. split; [|reflexivity]. rewrite Wu. rewrite <- pieces_words. unfold pieces. rewrite map_app. reflexivity.
    + left. cbn [length] in N. destruct Wu as [->|(e & e' & _ & _ & ->)]; cbn [words length]; lia.
Qed.
End Read.
