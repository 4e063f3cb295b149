(** Trace and selective matrices. *)
From Coq Require Import List Arith ZArith Lia Bool.
From Verif Require Import Prelude PreludeProofs SpaceModel SpaceSpec SpaceProofs SpaceProofs2 SpaceProofs4.
Import ListNotations.

(** * lists *)
Lemma combine_map_l {A B C} (f : A -> B) (l : list A) (m : list C) :
  combine (map f l) m = map (fun x => (f (fst x), snd x)) (combine l m).
Proof. revert m. induction l as [|a l IH]; intros [|b m]; try reflexivity. cbn. f_equal. apply IH. Qed.
Lemma combine_map_r {A B C} (f : A -> B) (l : list C) (m : list A) :
  combine l (map f m) = map (fun x => (fst x, f (snd x))) (combine l m).
Proof. revert m. induction l as [|a l IH]; intros [|b m]; try reflexivity. cbn. f_equal. apply IH. Qed.
Lemma combine_app {A B} (l1 l2 : list A) (m1 m2 : list B) : length l1 = length m1 ->
  combine (l1 ++ l2) (m1 ++ m2) = combine l1 m1 ++ combine l2 m2.
Proof.
  revert m1. induction l1 as [|a l IH]; intros [|b m] H; try discriminate; [reflexivity|].
  cbn [combine app]. f_equal. apply IH. cbn in H. lia.
Qed.
Lemma combine_swap {A B} (l : list A) (m : list B) : combine m l = map (fun x => (snd x, fst x)) (combine l m).
Proof. revert m. induction l as [|a l IH]; intros [|b m]; try reflexivity. cbn. f_equal. apply IH. Qed.
Lemma concat_some_cons {A} (a : list A) l : concat_some (Some a :: l) = option_map (app a) (concat_some l).
Proof. unfold concat_some. cbn [all_some]. destruct (all_some l); reflexivity. Qed.
Lemma in_combine_seq {A} (L : list A) x k : In (x, k) (combine L (seq 0 (length L))) -> nth_error L k = Some x.
Proof.
  intros H. assert (G : forall off, In (x, k) (combine L (seq off (length L))) -> off <= k /\ nth_error L (k - off) = Some x).
  { clear H. induction L as [|y L IH]; intros off H; [destruct H|]. cbn [length seq combine] in H. destruct H as [H|H].
    - injection H as -> ->. rewrite Nat.sub_diag. split; [lia|reflexivity].
    - apply IH in H. destruct H as [H1 H2]. split; [lia|]. replace (k - off) with (S (k - S off)) by lia. exact H2. }
  apply G in H. rewrite Nat.sub_0_r in H. apply H.
Qed.

(** * one assignment per column, or per row *)
Lemma lastw_index {A} (L : list A) (w : A -> nat -> write) (val : A -> nat -> nat -> option Z) r c d k
  (Hw : forall x j, let '(r', c', v) := w x j in
          (if (r =? r') && (c =? c') then Some v else None) = if j =? k then val x r c else None) :
  lastw (map (fun x => w (fst x) (snd x)) (combine L (seq 0 (length L)))) r c d =
  match nth_error L k with Some x => match val x r c with Some v => v | None => d end | None => d end.
Proof.
  assert (G : forall off d, lastw (map (fun x => w (fst x) (snd x)) (combine L (seq off (length L)))) r c d =
    match (if off <=? k then nth_error L (k - off) else None) with
    | Some x => match val x r c with Some v => v | None => d end | None => d end).
  { induction L as [|x L IH]; intros off d'.
    - cbn [length seq combine map lastw]. destruct (off <=? k); [destruct (k - off)|]; reflexivity.
    - cbn [length seq combine map]. specialize (Hw x off). cbn [fst snd]. destruct (w x off) as [[r' c'] v]. cbn [lastw].
      rewrite IH.
      assert (E : (if (r =? r') && (c =? c') then v else d') = if off =? k then match val x r c with Some v => v | None => d' end else d').
      { destruct ((r =? r') && (c =? c')), (off =? k); try congruence.
        - rewrite <- Hw. reflexivity.
        - rewrite <- Hw. reflexivity. }
      rewrite E. destruct (Nat.eqb_spec off k) as [->|D].
      + replace (S k <=? k) with false by (symmetry; apply Nat.leb_gt; lia). rewrite Nat.leb_refl, Nat.sub_diag. reflexivity.
      + destruct (Nat.leb_spec (S off) k), (Nat.leb_spec off k); try (exfalso; lia); try reflexivity.
        replace (k - off) with (S (k - S off)) by lia. reflexivity. }
  rewrite G. cbn [Nat.leb]. rewrite Nat.sub_0_r. reflexivity.
Qed.
Lemma lastw_col {A} (L : list A) f g r c :
  lastw (map (fun x => (f (fst x), snd x, g (fst x))) (combine L (seq 0 (length L)))) r c 0%Z =
  match nth_error L c with Some x => if r =? f x then g x else 0%Z | None => 0%Z end.
Proof.
  etransitivity; [apply (lastw_index L (fun x j => (f x, j, g x)) (fun x r c => if r =? f x then Some (g x) else None) r c 0%Z c)|].
  - intros x j. rewrite (Nat.eqb_sym j c). destruct (r =? f x), (c =? j); reflexivity.
  - destruct (nth_error L c); [|reflexivity]. destruct (r =? f a); reflexivity.
Qed.
Lemma lastw_row {A} (L : list A) f g r c :
  lastw (map (fun x => (snd x, f (fst x), g (fst x))) (combine L (seq 0 (length L)))) r c 0%Z =
  match nth_error L r with Some x => if c =? f x then g x else 0%Z | None => 0%Z end.
Proof.
  etransitivity; [apply (lastw_index L (fun x j => (j, f x, g x)) (fun x r c => if c =? f x then Some (g x) else None) r c 0%Z r)|].
  - intros x j. rewrite (Nat.eqb_sym j r). destruct (c =? f x), (r =? j); reflexivity.
  - destruct (nth_error L r); [|reflexivity]. destruct (c =? f a); reflexivity.
Qed.
Lemma pos_eqb cs x c : NoDup cs -> In x cs ->
  (c =? pos cs x) = match nth_error cs c with Some y => cell_eqb x y | None => false end.
Proof.
  intros N Hx. destruct (nth_error cs c) as [y|] eqn:E.
  - destruct (Nat.eqb_spec c (pos cs x)) as [->|D].
    + rewrite pos_nth in E by assumption. injection E as <-. symmetry. apply cell_eqb_eq. reflexivity.
    + destruct (cell_eqb x y) eqn:B; [|reflexivity]. apply cell_eqb_eq in B. subst y. exfalso. apply D. symmetry.
      apply pos_eq; assumption.
  - apply Nat.eqb_neq. intros ->. rewrite pos_nth in E by assumption. discriminate.
Qed.
Lemma restricts_of {A} (L : list (A * cell)) cs sg T : NoDup cs -> (forall x, In x L -> In (snd x) cs) ->
  (forall r c, T r c = match nth_error L r with Some x => if c =? pos cs (snd x) then sg (fst x) else 0%Z | None => 0%Z end) ->
  restricts L cs sg T.
Proof.
  intros N H HT r c. rewrite HT. destruct (nth_error L r) as [[s x]|] eqn:E; [|reflexivity]. cbn [fst snd].
  rewrite pos_eqb; [|assumption|exact (H _ (nth_error_In _ _ E))]. destruct (nth_error cs c); reflexivity.
Qed.

Section PU.
  Context (p : list nat) (ts : list ctype) (T : types_ok p ts) (F : Forall (fun n => 1 <= n) p).
  Definition scells (s : side) : list cell := filter (on_side p s) (cells p ts).
  Lemma scells_in s x : In x (scells s) -> In x (cells p ts).
  Proof. intros H. apply filter_In in H. apply H. Qed.
  Lemma on_sides_in sides x : In x (on_sides p ts sides) -> In (snd x) (cells p ts).
  Proof.
    intros H. unfold on_sides in H. apply in_flat_map in H. destruct H as (s & _ & H). apply in_map_iff in H.
    destruct H as (y & <- & Hy). apply (scells_in s). exact Hy.
  Qed.
  Context (comp : side -> nat) (sg : side -> Z).
  Definition one_comp (s : side) : Prop := exists t, nth_error ts (comp s) = Some t /\ filter (touches s) ts = [t].
  Lemma PU_writes sides off : (forall s, In s sides -> one_comp s) ->
    concat_some (map (fun sr => match nth_error (arrs_from 0 (map (sizes p) ts)) (comp (fst sr)) with
                                | Some a => assign (ravel a (side_sel (length (shp a)) (fst sr)))
                                                   (Some (snd sr)) (sg (fst sr))
                                | None => None
                                end) (combine sides (ranges off (map (fun s => length (scells s)) sides)))) =
    Some (map (fun x => (pos (cells p ts) (snd (fst x)), snd x, sg (fst (fst x))))
              (combine (on_sides p ts sides) (seq off (length (on_sides p ts sides))))).
  Proof.
    revert off. induction sides as [|s sides IH]; intros off H; [reflexivity|]. cbn [map ranges combine].
    destruct (H s) as (t & Ht & Hf); [left; reflexivity|].
    destruct (arrs_ex 0 (map (sizes p) ts) (comp s) (sizes p t)) as (a & Ha & _); [rewrite nth_error_map, Ht; reflexivity|].
    cbn [fst snd]. rewrite Ha.
    assert (Htt : touches s t = true).
    { assert (In t (filter (touches s) ts)) as Hi by (rewrite Hf; left; reflexivity). apply filter_In in Hi. apply Hi. }
    rewrite (ravel_side p ts _ _ _ _ T F Ha Ht Htt).
    assert (ES : scells s = filter (on_side p s) (cells_t p t)).
    { unfold scells. rewrite filter_side_cells by apply T. rewrite Hf. cbn [flat_map]. apply app_nil_r. }
    rewrite <- ES. unfold assign. rewrite map_length, seq_length, Nat.eqb_refl.
    rewrite concat_some_cons, IH by (intros; apply H; right; assumption). cbn [option_map]. f_equal.
    unfold on_sides at 3 4. cbn [flat_map]. fold (on_sides p ts sides). fold (scells s).
    rewrite app_length, map_length, seq_app, combine_app by (rewrite map_length, seq_length; reflexivity).
    rewrite map_app, !combine_map_l, !map_map. reflexivity.
  Qed.
  Lemma trace_PU_ok sides ns ntr : (forall s, In s sides -> one_comp s) ->
    ns = map (fun s => length (scells s)) sides -> ntr = length (on_sides p ts sides) ->
    exists M, trace_PU (map (sizes p) ts) ntr sides ns comp sg = Some M /\
              restricts (on_sides p ts sides) (cells p ts) sg M.
  Proof.
    intros H -> ->. unfold trace_PU. rewrite numbering_ok, PU_writes by assumption. rewrite nb_ok, build_ok.
    - eexists. split; [reflexivity|]. apply restricts_of.
      + apply NoDup_cells, T.
      + apply on_sides_in.
      + intros r c. cbv beta. rewrite fold_setm.
        apply (lastw_col (on_sides p ts sides) (fun x => pos (cells p ts) (snd x)) (fun x => sg (fst x))).
    - intros r c v Hi. apply in_map_iff in Hi. destruct Hi as ([[s x] k] & E & Hi). cbn [fst snd] in E.
      injection E as <- <- <-. apply in_combine_seq in Hi. split.
      + apply pos_lt. apply (on_sides_in sides (s, x)). eapply nth_error_In. eassumption.
      + apply nth_error_Some. intros Q. assert (Q' := eq_trans (eq_sym Hi) Q). discriminate.
  Qed.
  Lemma length_on_sides sides : length (on_sides p ts sides) = sum (map (fun s => length (scells s)) sides).
  Proof.
    induction sides as [|s l IH]; [reflexivity|]. unfold on_sides. cbn [flat_map map]. rewrite app_length, map_length, sum_cons.
    f_equal. exact IH.
  Qed.
End PU.

(** * stacked blocks *)
Lemma vstack_ok {A} (S_ : A -> list cell) cs sg keys (B : A -> nat -> nat -> Z) : NoDup cs ->
  (forall k, In k keys -> forall x, In x (S_ k) -> In x cs) ->
  (forall k, In k keys -> forall r c, r < length (S_ k) ->
     B k r c = match nth_error (S_ k) r with Some x => if c =? pos cs x then sg k else 0%Z | None => 0%Z end) ->
  restricts (flat_map (fun k => map (pair k) (S_ k)) keys) cs sg (vstack (map (fun k => (length (S_ k), B k)) keys)).
Proof.
  intros N H HB. apply restricts_of; [assumption| |].
  - intros x Hx. apply in_flat_map in Hx. destruct Hx as (k & Hk & Hx). apply in_map_iff in Hx.
    destruct Hx as (y & <- & Hy). apply (H k Hk y Hy).
  - intros r c. revert r. induction keys as [|k keys IH]; intros r; [destruct r; reflexivity|]. cbn [map vstack flat_map].
    destruct (Nat.ltb_spec r (length (S_ k))) as [L|L].
    + rewrite HB by (auto; left; reflexivity). rewrite nth_error_app1 by (rewrite map_length; assumption).
      rewrite nth_error_map. destruct (nth_error (S_ k) r); reflexivity.
    + rewrite IH by (intros; first [eapply H; [right; eassumption|assumption]|apply HB; [right; assumption|assumption]]).
      rewrite nth_error_app2; rewrite map_length; [reflexivity|assumption].
Qed.

(** * three dimensions *)
Section Three.
  Context (px py pz : nat) (Fp : Forall (fun n => 1 <= n) [px; py; pz]).
  Notation p := [px; py; pz].
  Lemma F3 : 1 <= px /\ 1 <= py /\ 1 <= pz.
  Proof. inversion Fp as [|? ? ? F1]; subst. inversion F1 as [|? ? ? F2]; subst. inversion F2; subst. auto. Qed.
  Lemma len_side s t n : length t = 3 -> touches s t = true ->
    option_map (fun ls => prodl (map (@length nat) ls)) (idxss (side_sel 3 s) (sizes p t)) = Some n ->
    length (filter (on_side p s) (cells_t p t)) = n.
  Proof.
    intros Lt Ht E. destruct (idxss (side_sel 3 s) (sizes p t)) as [ls|] eqn:El; [|discriminate]. injection E as <-.
    apply length_side; auto.
  Qed.
  Ltac len_t :=
    unfold scells; rewrite filter_side_cells by (cbn; intros t H; intuition (subst; reflexivity));
    cbn [filter touches nth_error fst snd negb flat_map nodes3 edges3 faces3]; rewrite ?app_length; cbn [length];
    repeat (erewrite len_side; [| reflexivity | reflexivity |
       cbn [side_sel map seq Nat.eqb fst snd sizes size idxss idxs]; cbn [option_map map]; rewrite ?seq_length; cbn [length prodl fold_right]; rewrite ?seq_length; reflexivity]).
  Lemma len0 : map (fun s => length (scells p nodes3 s)) NSWEBF = onsides on0 p.
  Proof. cbn [map NSWEBF]. unfold onsides, on0. repeat (apply f_equal2; [len_t; lia|]). reflexivity. Qed.
  Lemma len2 : map (fun s => length (scells p faces3 s)) NSWEBF = onsides on2 p.
  Proof.  cbn [map NSWEBF]. unfold onsides, on2. repeat (apply f_equal2; [len_t; lia|]). reflexivity. Qed.
  Lemma len1 : map (fun s => length (scells p edges3 s)) NSWEBF = onsides on1 p.
  Proof.  cbn [map NSWEBF]. unfold onsides, on1. repeat (apply f_equal2; [len_t; lia|]). reflexivity. Qed.
  Lemma ntrace_sum f : ntrace f p = sum (onsides f p).
  Proof. cbn. lia. Qed.
  Ltac comp_t := intros s H; cbn in H; repeat destruct H as [<-|H]; try contradiction; eexists; split; reflexivity.
  Lemma trace0_ok sg : exists M, trace0 sg p = Some M /\ restricts (on_sides p nodes3 sides3) (cells p nodes3) sg M.
  Proof.
    unfold trace0. rewrite shapes0_3. apply trace_PU_ok; [apply nodes3_ok|assumption|comp_t|symmetry; apply len0|].
    rewrite ntrace_sum, length_on_sides, <- len0. reflexivity.
  Qed.
  Lemma trace2_ok sg : exists M, trace2 sg p = Some M /\ restricts (on_sides p faces3 sides3) (cells p faces3) sg M.
  Proof.
    unfold trace2. rewrite shapes2_3. apply trace_PU_ok; [apply faces3_ok|assumption|comp_t|symmetry; apply len2|].
    rewrite ntrace_sum, length_on_sides, <- len2. reflexivity.
  Qed.
End Three.
