(** Proofs about RunnerModel: writing and reading of rows, and of rows written in part. *)
From Coq Require Import String Ascii List Arith Bool Lia.
From Verif Require Import AssembleModel RunnerModel RunnerSpec CochainProofs3 RunnerProofs RunnerProofs2.
Import ListNotations.
Local Open Scope nat_scope.
Local Open Scope list_scope.

(** words with the gaps behind them *)
Definition spread (l : list (text * text)) : text := concat (map (fun x => fst x ++ snd x) l).
Definition gap (g : text) : Prop := g <> [] /\ Forall (fun c => ws c = true) g.
Definition piece (x : text * text) : Prop := word (fst x) /\ gap (snd x).
Lemma spread_app l m : spread (l ++ m) = spread l ++ spread m.
Proof. unfold spread. rewrite map_app, concat_app. reflexivity. Qed.
Lemma words_gaps g t : Forall (fun c => ws c = true) g -> words (g ++ t) = words t.
Proof. induction 1 as [|c g C F IH]; [reflexivity|]. cbn [app]. rewrite words_ws by exact C. exact IH. Qed.
Lemma words_piece w g t : word w -> gap g -> words (w ++ g ++ t) = w :: words t.
Proof. intros W (D & F). destruct g as [|c g]; [easy|]. inversion_clear F as [|? ? C F']. cbn [app]. rewrite words_word by assumption. rewrite words_gaps by exact F'. reflexivity. Qed.
Lemma words_spread l t : Forall piece l -> words (spread l ++ t) = map fst l ++ words t.
Proof.
  induction 1 as [|[w g] l (W & G) F IH]; [reflexivity|]. unfold spread in *. cbn [map concat fst snd app] in *. rewrite <- !app_assoc, words_piece, IH by assumption. reflexivity.
Qed.
Lemma prefix_split (a b p q : text) : a ++ b = p ++ q -> (exists r, p = a ++ r /\ b = r ++ q) \/ (exists r, r <> [] /\ a = p ++ r /\ q = r ++ b).
Proof.
  revert p. induction a as [|x a IH]; intros p H.
  - left. exists p. auto.
  - destruct p as [|y p]; [right; exists (x :: a); repeat split; [discriminate|symmetry; exact H]|]. cbn [app] in H. injection H as -> H. destruct (IH p H) as [(r & -> & ->)|(r & N & -> & ->)]; [left; exists r; auto|right; exists r; auto].
Qed.
(** what is left of a text of words when it is cut *)
Lemma spread_cut l : Forall piece l -> forall p q, q <> [] -> spread l = p ++ q ->
  exists l1 w g l2 u, l = l1 ++ (w, g) :: l2 /\ p = spread l1 ++ u /\
    (u = [] \/ (exists w' r, w = w' ++ r /\ w' <> [] /\ r <> [] /\ u = w') \/ (exists g' r, g = g' ++ r /\ r <> [] /\ u = w ++ g')).
Proof.
  induction 1 as [|[w g] l (W & G) F IH]; intros p q Q E; [cbn in E; destruct p; [cbn in E; congruence|discriminate]|].
  unfold spread in E. cbn [map concat fst snd] in E. rewrite <- app_assoc in E. apply prefix_split in E as [(r & -> & E)|(r & N & -> & E)].
  - apply prefix_split in E as [(s & -> & E)|(s & N & -> & E)].
    + destruct (IH s q Q E) as (l1 & w1 & g1 & l2 & u & -> & -> & H). exists ((w, g) :: l1), w1, g1, l2, u. split; [reflexivity|]. split; [|exact H]. unfold spread. cbn [map concat fst snd]. rewrite <- !app_assoc. reflexivity.
    + exists [], w, (r ++ s), l, (w ++ r). split; [reflexivity|]. split; [reflexivity|]. right. right. exists r, s. auto.
  - exists [], (p ++ r), g, l, p. split; [reflexivity|]. split; [reflexivity|]. destruct p as [|c p]; [left; reflexivity|]. right. left. exists (c :: p), r. repeat split; [discriminate|exact N].
Qed.

Ltac slit' := intros N; cbn in N; repeat (destruct N as [N|N]; [discriminate|]); exact N.
Section Rows.
Variable V : Type.
Variable veqb : V -> V -> bool.
Variables fmt_in fmt_out : V -> text.
Variable parse : text -> option V.
Notation row_text := (row_text V fmt_in fmt_out).
Notation row := (row V).
Notation row_ok := (row_ok V fmt_in fmt_out parse).
Definition tokens (r : row) : list text :=
  (dec (idx V r) :: map fmt_in (rin V r) ++ map fmt_out (rout V r)) ++ [lit "|"; itc V r; ttc V r; ert V r].
Definition padded (n : nat) (w g : text) : text * text := (w, repeat sp (n - length w) ++ g).
Definition first_pieces (r : row) : list (text * text) :=
  (padded 14 (dec (idx V r)) [sp] :: map (fun v => padded 23 (fmt_in v) [sp; sp]) (rin V r) ++ map (fun v => padded 23 (fmt_out v) [sp; sp]) (rout V r)) ++
  [(lit "|", [sp]); padded 13 (itc V r) [sp; sp]; padded 13 (ttc V r) [sp; sp]].
Definition pieces (r : row) : list (text * text) := first_pieces r ++ [padded 13 (ert V r) [nl]].
Lemma spread_map {A} (f : A -> text) n g l : spread (map (fun v => padded n (f v) g) l) = concat (map (fun v => pad n (f v) ++ g) l).
Proof. unfold spread. rewrite map_map. f_equal. apply map_ext. intros a. unfold padded, pad. cbn [fst snd]. rewrite app_assoc. reflexivity. Qed.
Lemma spread_one n w g : spread [padded n w g] = pad n w ++ g.
Proof. unfold spread, padded, pad. cbn [map concat fst snd]. rewrite app_nil_r, app_assoc. reflexivity. Qed.
Lemma row_spread r : row_text r = spread (pieces r).
Proof.
  unfold pieces, first_pieces. rewrite !spread_app, spread_one. change (padded 14 (dec (idx V r)) [sp] :: ?l) with ([padded 14 (dec (idx V r)) [sp]] ++ l).
  change [(lit "|", [sp]); padded 13 (itc V r) [sp; sp]; padded 13 (ttc V r) [sp; sp]] with ([(lit "|", [sp])] ++ [padded 13 (itc V r) [sp; sp]] ++ [padded 13 (ttc V r) [sp; sp]]).
  rewrite !spread_app, !spread_one, !spread_map. unfold row_text. rewrite <- !app_assoc. reflexivity.
Qed.
Lemma gap_padded n w g : gap g -> gap (snd (padded n w g)).
Proof.
  intros (D & F). cbn [padded snd]. split; [intros H; apply app_eq_nil in H as (_ & H); exact (D H)|]. apply Forall_app. split; [|exact F]. apply Forall_forall. intros c H. apply repeat_spec in H. subst c. reflexivity.
Qed.
Lemma gap_1 : gap [sp]. Proof. split; [discriminate|repeat constructor]. Qed.
Lemma gap_2 : gap [sp; sp]. Proof. split; [discriminate|repeat constructor]. Qed.
Lemma gap_nl : gap [nl]. Proof. split; [discriminate|repeat constructor]. Qed.
Lemma pieces_ok nout r : row_ok nout r -> Forall piece (first_pieces r) /\ piece (padded 13 (ert V r) [nl]).
Proof.
  intros (_ & _ & I & O & T1 & T2 & T3). split; [|split; [exact T3|apply gap_padded, gap_nl]].
  apply Forall_app. split; [apply Forall_cons; [split; [apply dec_word|apply gap_padded, gap_1]|]; apply Forall_app; split|].
  - apply Forall_map. revert I. apply Forall_impl. intros v (W & _). split; [exact W|apply gap_padded, gap_2].
  - apply Forall_map. revert O. apply Forall_impl. intros v (W & _). split; [exact W|apply gap_padded, gap_2].
  - repeat apply Forall_cons; [..|constructor]; (split; [|first [exact gap_1|apply gap_padded, gap_2]]); try assumption. split; [discriminate|repeat constructor].
Qed.
Lemma pieces_words r : map fst (pieces r) = tokens r.
Proof.
  unfold pieces, first_pieces, tokens. rewrite !map_app. cbn [map fst padded]. rewrite map_app, !map_map. cbn [fst padded]. rewrite <- !app_assoc. reflexivity.
Qed.
Lemma row_words nout r t : row_ok nout r -> words (row_text r ++ t) = tokens r ++ words t.
Proof. intros R. destruct (pieces_ok nout r R) as (F & L). rewrite row_spread, words_spread by (apply Forall_app; split; [exact F|constructor; [exact L|constructor]]). rewrite pieces_words. reflexivity. Qed.
Lemma tokens_length nout r : row_ok nout r -> length (tokens r) = 1 + 3 + nout + 1 + 3.
Proof. intros (I & O & _). unfold tokens. rewrite app_length. cbn [length]. rewrite app_length, !map_length, I, O. lia. Qed.
Lemma remove1_app x l m : Forall (fun y => y <> x) l -> remove1 x (l ++ x :: m) = Some (l ++ m).
Proof.
  induction 1 as [|y l N F IH]; cbn [app remove1]; [rewrite teqb_refl; reflexivity|]. destruct (teqb y x) eqn:E; [apply teqb_eq in E; easy|]. rewrite IH. reflexivity.
Qed.
Lemma dec_bar n : dec n <> lit "|".
Proof. intros H. assert (U := undec_dec n). rewrite H in U. discriminate U. Qed.
Lemma read_tokens nout r : row_ok nout r -> read_to_rdf V parse 3 (tokens r) = Some r.
Proof.
  intros (LI & LO & I & O & _). unfold read_to_rdf, tokens.
  set (A := map fmt_in (rin V r) ++ map fmt_out (rout V r)).
  assert (FA : Forall (fun y => y <> lit "|") (dec (idx V r) :: A)).
  { apply Forall_cons; [apply dec_bar|]. apply Forall_app. split; apply Forall_map; [revert I|revert O]; apply Forall_impl; intros v (_ & N & _); exact N. }
  change ((dec (idx V r) :: A) ++ [lit "|"; itc V r; ttc V r; ert V r]) with ((dec (idx V r) :: A) ++ lit "|" :: [itc V r; ttc V r; ert V r]).
  rewrite (remove1_app _ _ _ FA). cbn [app hd tl length]. rewrite undec_dec, app_length. cbn [length].
  replace (S (length A + 3) - 4) with (length A) by lia. replace (S (length A + 3) - 3) with (S (length A)) by lia.
  rewrite firstn_app, firstn_all, Nat.sub_diag. cbn [firstn skipn]. rewrite app_nil_r, skipn_app, skipn_all, Nat.sub_diag. cbn [skipn app].
  assert (P : all_some (map parse A) = Some (rin V r ++ rout V r)).
  { unfold A. rewrite map_app. apply all_some_app; rewrite map_map.
    - rewrite (CochainProofs3.all_some_map _ (fun v => v)); [rewrite map_id; reflexivity|]. intros v H. rewrite Forall_forall in I. apply I, H.
    - rewrite (CochainProofs3.all_some_map _ (fun v => v)); [rewrite map_id; reflexivity|]. intros v H. rewrite Forall_forall in O. apply O, H. }
  rewrite P. clear P FA A I. destruct r as [m i o t1 t2 t3]. cbn in *. destruct i as [|a [|b [|c [|]]]]; try discriminate. reflexivity.
Qed.
(** a row is one line *)
Lemma gap_single n w g : single g -> single (snd (padded n w g)).
Proof. intros S. cbn [padded snd]. apply single_app; [apply single_repeat; discriminate|exact S]. Qed.
Lemma spread_single l : Forall (fun x => single (fst x) /\ single (snd x)) l -> single (spread l).
Proof. induction 1 as [|x l (A & B) F IH]; [intros []|]. unfold spread. cbn [map concat]. apply single_app; [apply single_app; assumption|exact IH]. Qed.
Lemma first_single nout r : row_ok nout r -> single (spread (first_pieces r)).
Proof.
  intros R. destruct (pieces_ok nout r R) as (F & _). destruct R as (_ & _ & _ & _ & _). apply spread_single.
  assert (G : Forall (fun x => single (snd x)) (first_pieces r)).
  { unfold first_pieces. apply Forall_app. split; [apply Forall_cons; [apply gap_single; slit'|]; apply Forall_app; split; apply Forall_map, Forall_forall; intros v _; apply gap_single; slit'|].
    repeat apply Forall_cons; [..|constructor]; first [slit'|apply gap_single; slit']. }
  rewrite Forall_forall in *. intros x H. split; [apply word_nl, F, H|apply G, H].
Qed.
End Rows.
