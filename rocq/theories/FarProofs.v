(* Sums, differences and multiples of forms. *)
From Coq Require Import String.
From Coq Require Import Reals List Lia Lra Arith Bool.
From Verif Require Import DiscModel TriModel FarModel FarSpec.
Import ListNotations.
Open Scope R_scope.
Lemma map2_nth {A B C} (f : A -> B -> C) l m i x y : nth_error l i = Some x -> nth_error m i = Some y -> nth_error (map2 f l m) i = Some (f x y).
Proof. revert l m. induction i as [|i IH]; intros [|a l] [|b m] P Q; try discriminate; cbn in *; [congruence|]. apply IH; assumption. Qed.
Lemma map2_length' {A B C} (f : A -> B -> C) l m : length l = length m -> length (map2 f l m) = length m.
Proof. revert m. induction l as [|a l IH]; intros [|b m] L; try discriminate; [reflexivity|]. cbn in *. f_equal. apply IH. lia. Qed.
Lemma np_same op a b : length a = length b -> np_op op a b = Some (map2 op a b).
Proof. intros L. unfold np_op. rewrite L, Nat.eqb_refl. reflexivity. Qed.
Lemma map2_entrywise op a b : length a = length b -> entrywise op a b (map2 op a b).
Proof. intros L. split; [rewrite map2_length'; assumption|]. split; [rewrite map2_length'; auto|]. intros i x y. apply map2_nth. Qed.
Lemma entrywise_one op a b c d : entrywise op a b c -> entrywise op a b d -> c = d.
Proof.
  intros (La & Lb & E) (La' & Lb' & E'). apply (nth_ext c d 0 0); [congruence|]. intros i I.
  destruct (nth_error a i) as [x|] eqn:X; [|apply nth_error_None in X; lia]. destruct (nth_error b i) as [y|] eqn:Y; [|apply nth_error_None in Y; lia].
  rewrite (nth_error_nth c i 0 (E i x y X Y)), (nth_error_nth d i 0 (E' i x y X Y)). reflexivity.
Qed.
Lemma has_at f e c : has f e c <-> exists l, f_local f = Some l /\ local_at l e = Some c.
Proof.
  unfold has, local_at. split.
  - intros (l & L & k & K). exists l. rewrite K. auto.
  - intros (l & L & K). destruct (find (fun kv => Nat.eqb (fst kv) e) l) as [[k c']|] eqn:Q; [|discriminate]. injection K as ->. eauto.
Qed.
Lemma has_one f e c d : has f e c -> has f e d -> c = d.
Proof. rewrite !has_at. intros (l & L & C) (l' & L' & D). congruence. Qed.
Lemma loop_ok g es : (forall e, In e es -> exists c, g e = Some c) -> exists l, loop g es = Some l /\ map fst l = es /\ (forall e c, In (e, c) l -> g e = Some c) /\ forall e, In e es -> local_at l e = g e.
Proof.
  induction es as [|e es IH]; intros H; [exists []; repeat split; intros; contradiction|].
  destruct (H e (or_introl eq_refl)) as (c & C). destruct IH as (l & L & K & V & F); [intros; apply H; right; assumption|].
  exists ((e, c) :: l). cbn [loop]. rewrite C, L. split; [reflexivity|]. split; [cbn; congruence|]. split.
  - intros e' c' [I|I]; [injection I as <- <-; exact C|apply V; exact I].
  - intros e' I. unfold local_at. cbn [find fst]. destruct (Nat.eqb e e') eqn:Q; [apply Nat.eqb_eq in Q as <-; symmetry; exact C|]. destruct I as [->|I]; [rewrite Nat.eqb_refl in Q; discriminate|]. exact (F e' I).
Qed.
Lemma loop_none g es e : In e es -> g e = None -> loop g es = None.
Proof. induction es as [|a es IH]; [intros []|]. intros [->|I] N; cbn [loop]; [rewrite N; reflexivity|]. rewrite (IH I N). destruct (g a); reflexivity. Qed.
Section A.
Variables (els : nat -> list nat) (nbasis : nat -> nat -> nat).
Lemma with_ok c m s o l : (forall e x, In (e, x) l -> length x = nbasis c s) -> with_local nbasis c m s o (Some l) = Some (mkForm c m s o (Some l)).
Proof.
  intros H. unfold with_local, set_local. replace (forallb _ l) with true; [reflexivity|]. symmetry. apply forallb_forall. intros [e x] I. apply Nat.eqb_eq. exact (H e x I).
Qed.
Lemma same_iff a b : same_kind a b = true <-> alike a b.
Proof.
  unfold same_kind, alike. rewrite !andb_true_iff, !Nat.eqb_eq. split; [intros [[-> ->] ->]; auto|intros (-> & -> & ->); auto].
Qed.
Lemma values op a b la lb : alike a b -> full els nbasis a -> full els nbasis b -> f_local a = Some la -> f_local b = Some lb ->
  forall e, In e (els (f_mesh a)) -> exists x y, local_at la e = Some x /\ local_at lb e = Some y /\ length x = length y /\ length y = nbasis (f_class a) (f_space a) /\ both_at op la lb e = Some (map2 op x y).
Proof.
  intros (C & M & S) FA FB LA LB e I. destruct (FA e I) as (x & X & Lx). rewrite M in I. destruct (FB e I) as (y & Y & Ly).
  apply has_at in X as (l & L & X). apply has_at in Y as (l' & L' & Y). assert (l = la) by congruence. assert (l' = lb) by congruence. subst. exists x, y.
  rewrite <- C, <- S in Ly. repeat split; try assumption; [congruence|]. unfold both_at. rewrite X, Y. apply np_same. congruence.
Qed.
Theorem combine_forms_ok op sg a b : alike a b -> full els nbasis a -> full els nbasis b -> (exists l, f_local a = Some l) -> (exists l, f_local b = Some l) ->
  exists f, combine_forms els nbasis op sg a b = Some f /\ alike a f /\ options_of f = options_of a /\ o_name (f_opts f) = (o_name (f_opts a) ++ sg ++ o_name (f_opts b))%string /\
    full els nbasis f /\ (exists l, f_local f = Some l) /\ forall e x y, In e (els (f_mesh a)) -> has a e x -> has b e y -> exists c, has f e c /\ entrywise op x y c.
Proof.
  intros K FA FB (la & LA) (lb & LB). pose proof (values op a b la lb K FA FB LA LB) as V.
  destruct (loop_ok (both_at op la lb) (els (f_mesh a))) as (l & L & Ks & Vs & At). { intros e I. destruct (V e I) as (x & y & _ & _ & _ & _ & E). eauto. }
  unfold combine_forms. rewrite (proj2 (same_iff a b) K), LA, LB, L.
  assert (Ln : forall e x, In (e, x) l -> length x = nbasis (f_class a) (f_space a)).
  { intros e x I. pose proof (Vs e x I) as E. assert (Ie : In e (els (f_mesh a))) by (rewrite <- Ks; apply in_map_iff; exists (e, x); auto).
    destruct (V e Ie) as (u & v & _ & _ & Luv & Lv & E'). rewrite E' in E. injection E as <-. rewrite map2_length'; assumption. }
  rewrite with_ok by exact Ln. eexists. split; [reflexivity|]. split; [repeat split|]. split; [reflexivity|]. split; [reflexivity|]. split; [|split; [cbn; eauto|]].
  - intros e I. cbn in I. destruct (V e I) as (x & y & _ & _ & Lxy & Ly & E). exists (map2 op x y). split; [|cbn; rewrite map2_length'; assumption].
    apply has_at. exists l. split; [reflexivity|]. rewrite At by exact I. exact E.
  - intros e x y I X Y. destruct (V e I) as (x' & y' & X' & Y' & Lxy & _ & E). apply has_at in X as (l1 & Q1 & X). apply has_at in Y as (l2 & Q2 & Y).
    assert (x = x') by congruence. assert (y = y') by congruence. subst. exists (map2 op x' y'). split; [|apply map2_entrywise; exact Lxy].
    apply has_at. exists l. split; [reflexivity|]. rewrite At by exact I. exact E.
Qed.
Theorem combine_tri_ok op a b : alike a b -> full els nbasis a -> full els nbasis b -> (exists l, f_local a = Some l) -> (exists l, f_local b = Some l) ->
  exists f, combine_tri els nbasis op a b = Some f /\ alike a f /\ full els nbasis f /\ (exists l, f_local f = Some l) /\
    forall e x y, In e (els (f_mesh a)) -> has a e x -> has b e y -> exists c, has f e c /\ entrywise op x y c.
Proof.
  intros K FA FB (la & LA) (lb & LB). pose proof (values op a b la lb K FA FB LA LB) as V.
  destruct (loop_ok (both_at op la lb) (els (f_mesh a))) as (l & L & Ks & Vs & At). { intros e I. destruct (V e I) as (x & y & _ & _ & _ & _ & E). eauto. }
  unfold combine_tri. rewrite (proj2 (same_iff a b) K), LA, LB. change (loop _ (els (f_mesh a))) with (loop (both_at op la lb) (els (f_mesh a))). rewrite L.
  assert (S : set_local_tri (els (f_mesh a)) (nbasis (f_class a) (f_space a)) l = Some l).
  { unfold set_local_tri. replace (Nat.eqb (length l) (length (els (f_mesh a)))) with true by (symmetry; apply Nat.eqb_eq; rewrite <- Ks; symmetry; apply map_length).
    rewrite Ks. replace (forallb _ _) with true; [reflexivity|]. symmetry. apply forallb_forall. intros [i j] I.
    assert (i = j /\ In i (els (f_mesh a))) as [<- Ii].
    { clear - I. induction (els (f_mesh a)) as [|k es IH]; [destruct I|]. destruct I as [I|I]; [injection I as <- <-; split; [reflexivity|left; reflexivity]|]. destruct (IH I). split; [assumption|right; assumption]. }
    cbn [fst snd]. rewrite (At i Ii). destruct (V i Ii) as (x & y & _ & _ & Lxy & Ly & ->). rewrite map2_length' by exact Lxy. rewrite Ly, !Nat.eqb_refl. reflexivity. }
  rewrite S. cbn [option_map]. eexists. split; [reflexivity|]. split; [repeat split|]. split; [|split; [cbn; eauto|]].
  - intros e I. cbn in I. destruct (V e I) as (x & y & _ & _ & Lxy & Ly & E). exists (map2 op x y). split; [|cbn; rewrite map2_length'; assumption].
    apply has_at. exists l. split; [reflexivity|]. rewrite At by exact I. exact E.
  - intros e x y I X Y. destruct (V e I) as (x' & y' & X' & Y' & Lxy & _ & E). apply has_at in X as (l1 & Q1 & X). apply has_at in Y as (l2 & Q2 & Y).
    assert (x = x') by congruence. assert (y = y') by congruence. subst. exists (map2 op x' y'). split; [|apply map2_entrywise; exact Lxy].
    apply has_at. exists l. split; [reflexivity|]. rewrite At by exact I. exact E.
Qed.
Lemma map_multiple r x : multiple r x (map (Rmult r) x).
Proof. split; [symmetry; apply map_length|]. intros i y E. rewrite nth_error_map, E. reflexivity. Qed.
Theorem rmul_ok t r a : full els nbasis a -> (exists l, f_local a = Some l) ->
  exists f g, rmul_3d els nbasis (Number t r) a = Some f /\ rmul_2d els nbasis (Number t r) a = Some g /\ f_local f = f_local g /\
    alike a f /\ alike a g /\ options_of f = options_of a /\ options_of g = options_of a /\ full els nbasis f /\ full els nbasis g /\
    (exists l, f_local f = Some l) /\
    forall e x, In e (els (f_mesh a)) -> has a e x -> exists c, has f e c /\ multiple r x c.
Proof.
  intros FA (la & LA).
  assert (V : forall e, In e (els (f_mesh a)) -> exists x, local_at la e = Some x /\ length x = nbasis (f_class a) (f_space a) /\ scaled r la e = Some (map (Rmult r) x)).
  { intros e I. destruct (FA e I) as (x & X & Lx). apply has_at in X as (l & L & X). assert (l = la) by congruence. subst. exists x. unfold scaled. rewrite X. auto. }
  destruct (loop_ok (scaled r la) (els (f_mesh a))) as (l & L & Ks & Vs & At). { intros e I. destruct (V e I) as (x & _ & _ & E). eauto. }
  assert (Ln : forall e x, In (e, x) l -> length x = nbasis (f_class a) (f_space a)).
  { intros e x I. pose proof (Vs e x I) as E. assert (Ie : In e (els (f_mesh a))) by (rewrite <- Ks; apply in_map_iff; exists (e, x); auto).
    destruct (V e Ie) as (u & _ & Lu & E'). rewrite E' in E. injection E as <-. rewrite map_length. exact Lu. }
  unfold rmul_3d, rmul_2d. rewrite LA. change (loop (fun e => scaled r la e) (els (f_mesh a))) with (loop (scaled r la) (els (f_mesh a))). rewrite L, !with_ok by exact Ln. eexists. eexists. split; [reflexivity|]. split; [reflexivity|]. split; [reflexivity|].
  split; [repeat split|]. split; [repeat split|]. split; [reflexivity|]. split; [reflexivity|].
  assert (Fu : forall o, full els nbasis (mkForm (f_class a) (f_mesh a) (f_space a) o (Some l))).
  { intros o e I. cbn in I. destruct (V e I) as (x & _ & Lx & E). exists (map (Rmult r) x). split; [|cbn; rewrite map_length; exact Lx]. apply has_at. exists l. split; [reflexivity|]. rewrite At by exact I. exact E. }
  split; [apply Fu|]. split; [apply Fu|]. split; [cbn; eauto|].
  intros e x I X. destruct (V e I) as (x' & X' & _ & E). apply has_at in X as (l1 & Q1 & X). assert (x = x') by congruence. subst. exists (map (Rmult r) x'). split; [|apply map_multiple].
  apply has_at. exists l. split; [reflexivity|]. rewrite At by exact I. exact E.
Qed.
(* mismatches *)
Theorem combine_none op sg a b : (~ alike a b \/ f_local a = None \/ f_local b = None) ->
  combine_forms els nbasis op sg a b = None /\ (els (f_mesh a) <> [] -> combine_tri els nbasis op a b = None).
Proof.
  intros H. unfold combine_forms, combine_tri. destruct (same_kind a b) eqn:S; [|auto]. apply same_iff in S. destruct H as [H|[H|H]]; [contradiction| |]; rewrite H.
  - split; [reflexivity|]. intros NE. destruct (els (f_mesh a)) as [|e r]; [contradiction|]. reflexivity.
  - split; [destruct (f_local a); reflexivity|]. intros NE. destruct (els (f_mesh a)) as [|e r]; [contradiction|]. cbn [loop]. destruct (f_local a); reflexivity.
Qed.
Theorem missing_element op sg a b e : alike a b -> In e (els (f_mesh a)) -> (forall c, ~ has a e c) \/ (forall c, ~ has b e c) ->
  combine_forms els nbasis op sg a b = None /\ combine_tri els nbasis op a b = None.
Proof.
  intros K I H. unfold combine_forms, combine_tri. rewrite (proj2 (same_iff a b) K).
  destruct (f_local a) as [la|] eqn:LA; [|split; [reflexivity|]; rewrite (loop_none _ _ e I) by reflexivity; reflexivity].
  destruct (f_local b) as [lb|] eqn:LB; [|split; [reflexivity|]; rewrite (loop_none _ _ e I) by reflexivity; reflexivity].
  assert (N : both_at op la lb e = None).
  { unfold both_at. destruct (local_at la e) as [x|] eqn:X; [|reflexivity]. destruct (local_at lb e) as [y|] eqn:Y; [|reflexivity]. exfalso. destruct H as [H|H]; [apply (H x)|apply (H y)]; apply has_at; eauto. }
  split; [rewrite (loop_none _ _ e I N)|rewrite (loop_none (fun e => both_at op la lb e) _ e I N)]; reflexivity.
Qed.
End A.
