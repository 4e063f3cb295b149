(** Proofs for C12 (searching in chained numberings) and C13 (cache of chained matrices). *)
From Coq Require Import List Arith ZArith Lia Bool Permutation.
From Coq Require String.
From Verif Require Import Prelude PreludeProofs AssembleModel AssembleProofs GatherModel GatherSpec GatherProofs.
Import ListNotations.
Local Open Scope nat_scope.
Local Arguments sum : simpl never.

Fixpoint ordered (b : nat) (lrs : list (nat * nat)) : Prop :=
  match lrs with
  | [] => True
  | (lo, hi) :: rest => b <= lo /\ lo < hi /\ ordered hi rest
  end.

Lemma ordered_ge lrs : forall b lo hi, ordered b lrs -> In (lo, hi) lrs -> b <= lo.
Proof.
  induction lrs as [|[l h] rest IH]; simpl; intros b lo hi O I; [tauto|]. destruct O as (A & B & C).
  destruct I as [E|I]; [injection E as -> ->; assumption|]. apply (IH _ _ _ C) in I. lia.
Qed.

Lemma find_where_spec m lrs : forall i pm, lrs <> [] -> pm <= m -> ordered pm lrs ->
  match find_where m i (Some pm) lrs with
  | inl (Some w) => exists k lo hi, w = i + k /\ nth_error lrs k = Some (lo, hi) /\ lo <= m < hi
  | inl None => forall lo hi, In (lo, hi) lrs -> ~ (lo <= m < hi)
  | inr _ => False
  end.
Proof.
  induction lrs as [|[lo hi] rest IH]; intros i pm NE P O; [congruence|].
  cbn [ordered] in O. destruct O as (A & B & C). cbn [find_where].
  destruct ((pm <=? m) && (m <? lo)) eqn:E1.
  - apply andb_true_iff in E1. destruct E1 as (_ & E1). apply Nat.ltb_lt in E1.
    intros l h [E|I]; [injection E as <- <-; lia|]. apply (ordered_ge _ _ _ _ C) in I. lia.
  - assert (lo <= m).
    { apply andb_false_iff in E1. destruct E1 as [E1|E1]; [apply Nat.leb_gt in E1; lia|apply Nat.ltb_ge in E1; lia]. }
    destruct ((lo <=? m) && (m <? hi)) eqn:E2.
    + apply andb_true_iff in E2. destruct E2 as (_ & E2). apply Nat.ltb_lt in E2.
      exists 0, lo, hi. split; [lia|]. split; [reflexivity|lia].
    + assert (hi <= m).
      { apply andb_false_iff in E2. destruct E2 as [E2|E2]; [apply Nat.leb_gt in E2; lia|apply Nat.ltb_ge in E2; lia]. }
      destruct rest as [|r2 rest'].
      * replace (hi <=? m) with true by (symmetry; apply Nat.leb_le; assumption).
        intros l h [E|[]]. injection E as <- <-. lia.
      * assert (NE' : r2 :: rest' <> []) by discriminate. remember (r2 :: rest') as rest.
        specialize (IH (S i) hi NE' H0 C).
        destruct (find_where m (S i) (Some hi) rest) as [[w|]|u]; [|intros l h [E|I]; [injection E as <- <-; lia|eauto]|assumption].
        destruct IH as (k & l & h & E & K & L). exists (S k), l, h. split; [lia|]. auto.
Qed.

Lemma which_matrix_spec m lrs : lrs <> [] -> ordered 0 lrs ->
  match which_matrix m lrs with
  | inl (Some w) => exists lo hi, nth_error lrs w = Some (lo, hi) /\ lo <= m < hi
  | inl None => forall lo hi, In (lo, hi) lrs -> ~ (lo <= m < hi)
  | inr _ => False
  end.
Proof.
  intros NE O. unfold which_matrix. destruct lrs as [|[lo hi] rest]; [congruence|].
  cbn [ordered] in O. destruct O as (_ & B & C). destruct rest as [|x rest].
  - destruct ((lo <=? m) && (m <? hi)) eqn:E.
    + apply andb_true_iff in E. destruct E as (E1 & E2). apply Nat.leb_le in E1. apply Nat.ltb_lt in E2.
      exists lo, hi. auto.
    + intros l h [E'|[]]. injection E' as <- <-. intros (H1 & H2).
      apply Nat.leb_le in H1. apply Nat.ltb_lt in H2. rewrite H1, H2 in E. discriminate.
  - assert (NE' : x :: rest <> []) by discriminate. remember (x :: rest) as tl. cbn [find_where].
    destruct (Nat.ltb_spec m lo) as [L|L].
    + intros l h [E|I]; [injection E as <- <-; lia|]. apply (ordered_ge _ _ _ _ C) in I. lia.
    + destruct ((lo <=? m) && (m <? hi)) eqn:E.
      * apply andb_true_iff in E. destruct E as (_ & E). apply Nat.ltb_lt in E. exists lo, hi. auto.
      * assert (H : hi <= m).
        { apply andb_false_iff in E. destruct E as [E|E]; [apply Nat.leb_gt in E; lia|apply Nat.ltb_ge in E; lia]. }
        assert (S := find_where_spec m tl 1 hi NE' H C).
        destruct (find_where m 1 (Some hi) tl) as [[w|]|u]; [|intros l h [E'|I]; [injection E' as <- <-; lia|eauto]|assumption].
        destruct S as (k & l & h & -> & K & LL). exists l, h. auto.
Qed.

Lemma ordered_nth (off : nat -> nat) lrs : forall s,
  (forall j lo hi, nth_error lrs j = Some (lo, hi) -> off (s + j) <= lo /\ lo < hi /\ hi <= off (S (s + j))) ->
  ordered (off s) lrs.
Proof.
  assert (W : forall lrs b b', b' <= b -> ordered b lrs -> ordered b' lrs).
  { intros [|[l h] r]; simpl; intuition lia. }
  induction lrs as [|[lo hi] rest IH]; intros s H; [exact I|].
  assert (H0 := H 0 lo hi eq_refl). rewrite Nat.add_0_r in H0. destruct H0 as (A & B & C).
  split; [assumption|]. split; [assumption|]. apply (W _ (off (S s))); [assumption|].
  apply IH. intros j l h E. specialize (H (S j) l h E). replace (S s + j) with (s + S j) by lia. assumption.
Qed.

Lemma Forall2_nth_error {A B} (P : A -> B -> Prop) l m : Forall2 P l m ->
  length l = length m /\ forall i a b, nth_error l i = Some a -> nth_error m i = Some b -> P a b.
Proof.
  induction 1 as [|a b l m H F (L & IH)]; simpl.
  - split; [reflexivity|]. intros [|i]; discriminate.
  - split; [congruence|]. intros [|i] x y; simpl; [intros E1 E2; congruence|apply IH].
Qed.

Lemma minl_in l : l <> [] -> In (minl l) l /\ forall x, In x l -> minl l <= x.
Proof.
  destruct l as [|a l]; [congruence|]. intros _. simpl.
  assert (H : (fold_right Nat.min a l = a \/ In (fold_right Nat.min a l) l) /\ fold_right Nat.min a l <= a /\
              forall x, In x l -> fold_right Nat.min a l <= x).
  { induction l as [|b l (I & L & B)]; simpl.
    - split; [auto|]. split; [lia|tauto].
    - split; [|split].
      + destruct (Nat.min_spec b (fold_right Nat.min a l)) as [(_ & ->)|(_ & ->)]; [auto|]. destruct I; auto.
      + lia.
      + intros x [->|Hx]; [lia|]. apply B in Hx. lia. }
  destruct H as (I & L & B). split.
  - destruct I as [->|I]; auto.
  - intros x [->|Hx]; auto.
Qed.

Lemma maxl_In l : l <> [] -> In (maxl l) l.
Proof.
  induction l as [|a l IH]; [congruence|]. intros _. simpl. destruct l as [|b l].
  - simpl. rewrite Nat.max_0_r. auto.
  - destruct (Nat.max_spec a (maxl (b :: l))) as [(_ & E)|(_ & E)]; rewrite E; [right; apply IH; discriminate|auto].
Qed.

(** * first positions *)
Lemma first_index_spec m v i : first_index (Nat.eqb m) v = Some i <-> first_at v i m.
Proof.
  unfold first_at. revert i. induction v as [|x v IH]; simpl; intros i.
  - split; [discriminate|]. intros (E & _). destruct i; discriminate.
  - destruct (Nat.eqb_spec m x) as [->|D].
    + split.
      * intros E. injection E as <-. split; [reflexivity|]. intros i' H. lia.
      * intros (E & F). destruct i; [reflexivity|]. exfalso. apply (F 0); [lia|reflexivity].
    + destruct (first_index (Nat.eqb m) v) as [k|] eqn:E; simpl.
      * split.
        -- intros K. injection K as <-. destruct (proj1 (IH k) eq_refl) as (A & B). split; [assumption|].
           intros [|i'] H; simpl; [congruence|apply B; lia].
        -- intros (A & B). destruct i; [simpl in A; congruence|]. f_equal. f_equal.
           assert (F : Some k = Some i); [|congruence]. apply IH. split; [assumption|].
           intros i' H. apply (B (S i')). lia.
      * split; [discriminate|]. intros (A & B). destruct i; [simpl in A; congruence|].
        exfalso. assert (F : None = Some i); [|discriminate]. apply IH. split; [assumption|].
        intros i' H. apply (B (S i')). lia.
Qed.

Lemma first_index_total m v : In m v -> exists i, first_index (Nat.eqb m) v = Some i.
Proof.
  induction v as [|x v IH]; simpl; [tauto|]. intros I. destruct (Nat.eqb_spec m x); [eauto|].
  destruct I as [->|I]; [congruence|]. destruct (IH I) as (i & ->). simpl. eauto.
Qed.

Lemma first_at_app A b C i m : ~ In m A -> first_at b i m -> first_at (A ++ b ++ C) (length A + i) m.
Proof.
  intros NI (E & F). assert (i < length b) by (apply nth_error_Some; congruence). split.
  - rewrite nth_error_app2 by lia. replace (length A + i - length A) with i by lia.
    rewrite nth_error_app1 by assumption. assumption.
  - intros i' H'. destruct (le_lt_dec (length A) i') as [L|L].
    + rewrite nth_error_app2 by assumption. rewrite nth_error_app1 by lia. apply F. lia.
    + rewrite nth_error_app1 by assumption. intros K. apply nth_error_In in K. contradiction.
Qed.

Lemma first_at_map o v i m : first_at v i m -> first_at (map (fun d => d + o) v) i (m + o).
Proof.
  intros (E & F). split.
  - rewrite nth_error_map, E. reflexivity.
  - intros i' H K. rewrite nth_error_map in K. destruct (nth_error v i') as [x|] eqn:Ex; [|discriminate].
    simpl in K. injection K as K. apply (F i' H). rewrite Ex. f_equal. lia.
Qed.

Lemma length_concat {A} (L : list (list A)) : length (concat L) = sum (map (@length A) L).
Proof. induction L; simpl; [reflexivity|]. rewrite app_length, sum_cons, IHL. reflexivity. Qed.

Lemma NoDup_firstn {A} n (l : list A) : NoDup l -> NoDup (firstn n l).
Proof.
  intros ND. rewrite <- (firstn_skipn n l) in ND. induction (firstn n l); [constructor|]. inversion ND; subst.
  constructor; [intros I; apply H1; apply in_or_app; auto|auto].
Qed.

Lemma not_zero {A} (N : option nat) (X Y : A) : N <> Some 0 -> match N with Some 0 => X | _ => Y end = Y.
Proof. destruct N as [[|n]|]; congruence. Qed.

Section Find.
  Variables (SIZE : nat) (gms : list GMat) (ns : list nat).
  Hypothesis WN : well_numbered SIZE gms ns.
  Hypothesis REG : forall g, In g gms -> regular g.

  Let off j := sum (firstn j ns).

  Lemma local_range_ok j g r : nth_error gms j = Some g -> gm_local g r <> [] ->
    exists lo hi, local_range g r = Some (lo, hi) /\ lo < hi /\ hi <= nth j ns 0 /\
      forall e v d, gv_of g r e = Some v -> In d v -> lo <= d < hi.
  Proof.
    intros Eg NE. assert (Hg : In g gms) by (eapply nth_error_In; eassumption).
    assert (ELR : local_range g r = Some (minl (local_dofs g r), S (maxl (local_dofs g r)))).
    { unfold local_range. destruct (gm_local g r); [congruence|reflexivity]. }
    rewrite ELR. destruct (gm_local g r) as [|kv rest] eqn:EL; [congruence|].
    assert (NED : local_dofs g r <> []).
    { unfold local_dofs. destruct kv as [e v].
      assert (E : gv_of g r e = Some v) by (unfold gv_of; rewrite EL; simpl; rewrite Nat.eqb_refl; reflexivity).
      apply (wn_nonempty _ _ _ WN g r e v Hg) in E. rewrite EL. simpl. destruct v; [congruence|discriminate]. }
    assert (ID : forall d, In d (local_dofs g r) <-> exists e v, gv_of g r e = Some v /\ In d v).
    { intros d. unfold local_dofs. rewrite in_concat. split.
      - intros (v & I & K). apply in_map_iff in I. destruct I as ([e v'] & <- & I). exists e, v'. split; [|assumption].
        unfold gv_of. apply lookup_In_iff; [apply (wn_keys _ _ _ WN g r Hg)|assumption].
      - intros (e & v & E & K). exists v. split; [|assumption]. apply in_map_iff. exists (e, v).
        split; [reflexivity|]. apply lookup_In. assumption. }
    destruct (minl_in _ NED) as (I & B). assert (J := maxl_In _ NED).
    do 2 eexists. split; [reflexivity|]. split; [apply maxl_in in I; lia|]. split.
    - apply ID in J. destruct J as (e & v & E & K).
      destruct (nth_ns _ _ _ WN j g Eg) as (_ & En). destruct (wn_dofs _ _ _ WN j g _ Eg En) as (_ & HD).
      apply HD. exists r, e, v. auto.
    - intros e v d E K. assert (ID' : In d (local_dofs g r)) by (apply ID; eauto).
      split; [apply B; assumption|]. apply maxl_in in ID'. lia.
  Qed.

  Lemma local_nonempty r g : In g gms -> elements (nth 0 gms []) r <> [] -> gm_local g r <> [].
  Proof.
    intros Hg NE E. destruct (elements (nth 0 gms []) r) as [|e l] eqn:EL; [congruence|].
    assert (He : In e (elements (nth 0 gms []) r)) by (rewrite EL; left; reflexivity).
    apply (wn_elem _ _ _ WN _ g) in He; [|apply (g0_in _ _ _ WN)|assumption]. unfold elements in He. rewrite E in He. destruct He.
  Qed.

  Lemma local_ranges_ok r : elements (nth 0 gms []) r <> [] ->
    exists lrs, local_ranges ns gms r = Some lrs /\ length lrs = length gms /\ ordered 0 lrs /\
      forall j lo hi, nth_error lrs j = Some (lo, hi) ->
        off j <= lo /\ hi <= off (S j) /\
        forall g e v d, nth_error gms j = Some g -> gv_of g r e = Some v -> In d v -> lo <= d + off j < hi.
  Proof.
    intros NE. unfold local_ranges.
    destruct (all_some_map_total (fun jg => option_map (fun lr => (fst lr + nth (fst jg) (To_Be_Added 0 ns) 0,
                 snd lr + nth (fst jg) (To_Be_Added 0 ns) 0)) (local_range (snd jg) r)) (enumerate gms)) as (lrs & E).
    { intros [j g] I. apply in_enumerate in I. simpl.
      destruct (local_range_ok j g r I) as (lo & hi & -> & _).
      - apply local_nonempty; [eapply nth_error_In; eassumption|assumption].
      - discriminate. }
    exists lrs. split; [assumption|]. apply all_some_map in E. apply Forall2_nth_error in E. destruct E as (L & H).
    rewrite length_enumerate in L.
    assert (SP : forall j lo hi, nth_error lrs j = Some (lo, hi) ->
        exists g lo' hi', nth_error gms j = Some g /\ local_range g r = Some (lo', hi') /\ lo = lo' + off j /\ hi = hi' + off j /\
          lo' < hi' /\ hi' <= nth j ns 0 /\ j < length ns /\ forall e v d, gv_of g r e = Some v -> In d v -> lo' <= d < hi').
    { intros j lo hi Ej. assert (Hj : j < length gms) by (rewrite L; apply nth_error_Some; congruence).
      destruct (nth_error gms j) as [g|] eqn:Eg; [|apply nth_error_None in Eg; lia].
      assert (K := H j (j, g) (lo, hi)). rewrite nth_error_enumerate, Eg in K. specialize (K eq_refl Ej). simpl in K.
      destruct (local_range_ok j g r Eg) as (lo' & hi' & E & A & B & C).
      { apply local_nonempty; [eapply nth_error_In; eassumption|assumption]. }
      rewrite E in K. simpl in K. destruct (nth_ns _ _ _ WN j g Eg) as (Hjn & _).
      rewrite nth_TBA in K by assumption. simpl in K. injection K as <- <-.
      exists g, lo', hi'. unfold off. repeat (split; [first [assumption|reflexivity]|]). assumption. }
    assert (OS : forall j, j < length ns -> off (S j) = off j + nth j ns 0) by (intros; unfold off; apply sum_firstn_S; assumption).
    split; [congruence|]. split.
    - change 0 with (off 0). apply ordered_nth. intros j lo hi Ej. simpl.
      destruct (SP j lo hi Ej) as (g & lo' & hi' & _ & _ & -> & -> & A & B & C & _). rewrite OS by assumption. lia.
    - intros j lo hi Ej. destruct (SP j lo hi Ej) as (g & lo' & hi' & Eg & _ & -> & -> & A & B & C & D).
      rewrite OS by assumption. split; [lia|]. split; [lia|]. intros g' e v d Eg' Ev Id.
      assert (g' = g) by congruence. subst. specialize (D e v d Ev Id). lia.
  Qed.

  Lemma GV_LENs_ok r : elements (nth 0 gms []) r <> [] ->
    exists lens, GV_LENs gms r = Some lens /\
      forall e, In e (elements (nth 0 gms []) r) -> lens = map (@length nat) (local_vectors gms r e).
  Proof.
    intros NE.
    assert (EQ : GV_LENs gms r = match elements (nth 0 gms []) r with [] => None
               | e :: _ => all_some (map (fun g => option_map (@length nat) (gv_of g r e)) gms) end).
    { unfold GV_LENs. destruct (gms_cons _ _ _ WN) as (g & rest & EG). rewrite EG. reflexivity. }
    rewrite EQ. clear EQ. destruct (elements (nth 0 gms []) r) as [|e0 l] eqn:EL; [congruence|].
    exists (map (@length nat) (local_vectors gms r e0)). 
    assert (HE : forall e, In e (e0 :: l) -> In e (elements (GatherProofs.g0 gms) r)).
    { intros e He. unfold GatherProofs.g0. rewrite EL. assumption. }
    split.
    - apply all_some_map. unfold local_vectors. rewrite map_map.
      assert (H : forall hs, incl hs gms -> Forall2 (fun a b => option_map (@length nat) (gv_of a r e0) = Some b) hs
                (map (fun x => length (match gv_of x r e0 with Some v => v | None => [] end)) hs)).
      { induction hs as [|h hs IH]; intros H; simpl; constructor.
        - rewrite (gv_some _ _ _ WN h r e0); [reflexivity|apply H; left; reflexivity|apply HE; left; reflexivity].
        - apply IH. intros x Hx. apply H. right. assumption. }
      apply H. apply incl_refl.
    - intros e He. unfold local_vectors. rewrite !map_map. apply map_ext_in. intros h Hh.
      destruct (REG h Hh) as (Lh & HL).
      rewrite !(gv_some _ _ _ WN h) by (auto; apply HE; auto; left; reflexivity).
      rewrite (HL r e0 (vec h r e0)), (HL r e (vec h r e)); [reflexivity| |];
        (apply (gv_some _ _ _ WN); [assumption|apply HE; auto; left; reflexivity]).
  Qed.

  Lemma silly_in r e v m : In e (elements (nth 0 gms []) r) -> CGM_getitem SIZE gms Silly r e = Some v ->
    (In m v <-> exists j d w, nth_error (local_vectors gms r e) j = Some w /\ In d w /\ m = d + off j).
  Proof.
    intros He E. rewrite (CGM_silly _ _ _ WN), (silly_ok _ _ _ WN) in E by assumption. injection E as <-.
    rewrite in_map_iff. split.
    - intros ([j d] & <- & I). apply in_dof_pairs in I. destruct I as (w & Ew & I). exists j, d, w. auto.
    - intros (j & d & w & Ew & I & ->). exists (j, d). split; [reflexivity|]. apply in_dof_pairs. eauto.
  Qed.

  Lemma nth_vectors r e j g : nth_error gms j = Some g -> In e (elements (nth 0 gms []) r) ->
    nth_error (local_vectors gms r e) j = Some (vec g r e).
  Proof.
    intros Eg He. unfold local_vectors. rewrite nth_error_map, Eg. reflexivity.
  Qed.

  Lemma skipn_enumerate_gen {A} (vs : list A) s w v : nth_error vs w = Some v ->
    exists X Y, combine (seq s (length vs)) vs = X ++ (s + w, v) :: Y /\ map snd X = firstn w vs /\
      forall p, In p X -> fst p < s + w.
  Proof.
    revert s w. induction vs as [|a vs IH]; intros s w E; [destruct w; discriminate|].
    destruct w as [|w]; simpl in E.
    - injection E as ->. exists [], (combine (seq (S s) (length vs)) vs). rewrite Nat.add_0_r. simpl. split; [reflexivity|]. split; [reflexivity|tauto].
    - destruct (IH (S s) w E) as (X & Y & EX & EM & EL). exists ((s, a) :: X), Y. simpl. rewrite EX.
      replace (s + S w) with (S s + w) by lia. split; [reflexivity|]. split; [rewrite EM; reflexivity|].
      intros p [<-|I]; [simpl; lia|]. apply EL in I. lia.
  Qed.

  (** the first position of m in the chained vector *)
  Lemma silly_first r e v w g i m' : In e (elements (nth 0 gms []) r) -> CGM_getitem SIZE gms Silly r e = Some v ->
    nth_error gms w = Some g -> first_at (vec g r e) i m' -> m' < nth w ns 0 ->
    first_at v (sum (firstn w (map (@length nat) (local_vectors gms r e))) + i) (m' + off w).
  Proof.
    intros He E Eg F Lm. assert (E' := E).
    rewrite (CGM_silly _ _ _ WN), (silly_ok _ _ _ WN) in E by assumption. injection E as <-.
    assert (Ew := nth_vectors r e w g Eg He).
    unfold dof_pairs. destruct (skipn_enumerate_gen _ 0 w _ Ew) as (X & Y & EX & EM & EL). simpl in EX.
    unfold enumerate. rewrite EX, map_app, concat_app, map_app. simpl. rewrite map_app, map_map. simpl.
    set (A := map _ (concat (map _ X))). set (C := map _ (concat (map _ Y))).
    replace (sum (firstn w (map (@length nat) (local_vectors gms r e)))) with (length A).
    - apply first_at_app.
      + intros I. unfold A in I. apply in_map_iff in I. destruct I as ([j d] & E & I).
        apply in_concat in I. destruct I as (bl & Ib & Id). apply in_map_iff in Ib. destruct Ib as ([j' u] & <- & Ip).
        simpl in Id. apply in_map_iff in Id. destruct Id as (d' & Ed & Id). injection Ed as <- <-.
        assert (Hj := EL _ Ip). simpl in Hj.
        assert (Ip' : In (j', u) (enumerate (local_vectors gms r e))).
        { unfold enumerate. rewrite EX. apply in_or_app. left. assumption. }
        apply in_enumerate in Ip'.
        destruct (pair_bound _ _ _ WN r e j' d' He) as (g' & _ & J1 & D1 & _).
        { apply in_dof_pairs. eauto. }
        destruct (nth_ns _ _ _ WN w g Eg) as (Wn & _). simpl in E.
        destruct (offset_inj ns j' d' w m' J1 Wn D1 Lm E). lia.
      + apply first_at_map. assumption.
    - unfold A. rewrite map_length, length_concat, map_map.
      rewrite firstn_map. transitivity (sum (map (@length nat) (map snd X))).
      + rewrite map_map. f_equal. apply map_ext. intros [j u]. simpl. apply map_length.
      + f_equal. f_equal. exact EM.
  Qed.

  Lemma in_search N m g r : In g gms ->
    NoDup (search N m (gm_local g r)) /\
    (forall e, In e (search N m (gm_local g r)) -> exists v, gv_of g r e = Some v /\ In m v) /\
    match N with
    | None => forall e v, gv_of g r e = Some v -> In m v -> In e (search N m (gm_local g r))
    | Some n => length (search N m (gm_local g r)) <= n /\
        (length (search N m (gm_local g r)) < n ->
         forall e v, gv_of g r e = Some v -> In m v -> In e (search N m (gm_local g r)))
    end.
  Proof.
    intros Hg. unfold search. set (l := map fst (filter (fun kv : nat * GV => existsb (Nat.eqb m) (snd kv)) (gm_local g r))).
    assert (ND : NoDup l).
    { assert (K := wn_keys _ _ _ WN g r Hg). unfold elements in K. unfold l. clear l.
      induction (gm_local g r) as [|[e v] rest IH]; simpl in *; [constructor|]. inversion K; subst.
      destruct (existsb (Nat.eqb m) v); simpl; [constructor; [|apply IH; assumption]|apply IH; assumption].
      intros I. apply in_map_iff in I. destruct I as (p & E & I). apply filter_In in I. apply H1. rewrite <- E.
      apply in_map. tauto. }
    assert (IL : forall e, In e l <-> exists v, gv_of g r e = Some v /\ In m v).
    { intros e. unfold l. rewrite in_map_iff. split.
      - intros ([e' v] & <- & I). apply filter_In in I. destruct I as (I & X). apply existsb_exists in X.
        destruct X as (y & Iy & Ey). apply Nat.eqb_eq in Ey. subst y. exists v. split; [|assumption].
        unfold gv_of. apply lookup_In_iff; [apply (wn_keys _ _ _ WN g r Hg)|assumption].
      - intros (v & E & I). exists (e, v). split; [reflexivity|]. apply filter_In. split; [apply lookup_In; assumption|].
        apply existsb_exists. exists m. split; [assumption|apply Nat.eqb_refl]. }
    assert (FS : forall n x, In x (firstn n l) -> In x l).
    { intros n x I. rewrite <- (firstn_skipn n l). apply in_or_app. auto. }
    destruct N as [n|].
    - split; [|split; [|split]].
      + exact (NoDup_firstn n l ND).
      + intros e I. apply IL, (FS n), I.
      + apply (firstn_le_length n l).
      + intros L e v E I. assert (FA : firstn n l = l) by (apply firstn_all2; change (length (firstn n l) < n) in L; rewrite firstn_length in L; lia).
        change (In e (firstn n l)). rewrite FA. apply IL. eauto.
    - split; [assumption|]. split; [intros e I; apply IL; assumption|]. intros e v E I. apply IL. eauto.
  Qed.

  Lemma CGM_find_spec r N m : r < SIZE -> N <> Some 0 ->
    (- Z.of_nat (sum ns) <= m < Z.of_nat (sum ns))%Z ->
    let M := Z.to_nat (if (m <? 0)%Z then m + Z.of_nat (sum ns) else m)%Z in
    match CGM_find SIZE gms r N m with
    | Raised => False
    | NotFound => forall e v, CGM_getitem SIZE gms Silly r e = Some v -> ~ In M v
    | Found (ELE, idx) =>
        ELE <> [] /\ NoDup ELE /\
        Forall2 (fun e i => exists v, CGM_getitem SIZE gms Silly r e = Some v /\ first_at v i M) ELE idx /\
        match N with
        | None => forall e v, CGM_getitem SIZE gms Silly r e = Some v -> In M v -> In e ELE
        | Some n => length ELE <= n /\ (length ELE < n ->
                      forall e v, CGM_getitem SIZE gms Silly r e = Some v -> In M v -> In e ELE)
        end
    end.
  Proof.
    intros Hr HN Hm M. unfold CGM_find. rewrite (chain_check_ok _ _ _ WN), (total_ok _ _ _ WN).
    replace ((- Z.of_nat (sum ns) <=? m)%Z && (m <? Z.of_nat (sum ns))%Z) with true
      by (symmetry; apply andb_true_iff; split; [apply Z.leb_le|apply Z.ltb_lt]; lia).
    cbn [negb]. fold M.
    assert (LM : M < sum ns) by (unfold M; destruct (Z.ltb_spec m 0); lia).
    assert (GE : forall e v, CGM_getitem SIZE gms Silly r e = Some v -> In e (elements (nth 0 gms []) r)).
    { intros e v E. apply (getitem_elements _ _ _ WN) in E. tauto. }
    rewrite not_zero by assumption.
    destruct (elements (nth 0 gms []) r) as [|e0 el] eqn:EL.
    { intros e v E; apply GE in E; destruct E. }
    rewrite <- EL in GE. assert (NE : elements (nth 0 gms []) r <> []) by (rewrite EL; discriminate).
    destruct (local_ranges_ok r NE) as (lrs & E1 & LL & OR & PR).
    destruct (GV_LENs_ok r NE) as (lens & E2 & PL).
    rewrite E1, E2.
    assert (NEl : lrs <> []).
    { intros ->. simpl in LL. destruct (gms_cons _ _ _ WN) as (g & rest & E). rewrite E in LL. discriminate. }
    assert (WS := which_matrix_spec M lrs NEl OR).
    destruct (which_matrix M lrs) as [[w|]|u]; [|..|destruct WS].
    - (* found the matrix *)
      destruct WS as (lo & hi & Ew & Lh). destruct (PR w lo hi Ew) as (P1 & P2 & P3).
      assert (Hw : w < length gms) by (rewrite <- LL; apply nth_error_Some; congruence).
      destruct (nth_error gms w) as [g|] eqn:Eg; [|apply nth_error_None in Eg; lia].
      assert (Hg : In g gms) by (eapply nth_error_In; eassumption).
      destruct (nth_ns _ _ _ WN w g Eg) as (Wn & _).
      rewrite nth_TBA by assumption. rewrite Nat.add_0_l. fold (off w). rewrite (nth_error_nth _ _ _ Eg).
      set (m' := M - off w). assert (EM : M = m' + off w) by (unfold m'; lia).
      assert (Lm' : m' < nth w ns 0).
      { assert (off (S w) = off w + nth w ns 0) by (unfold off; apply sum_firstn_S; assumption). unfold m'. lia. }
      destruct (in_search N m' g r Hg) as (S1 & S2 & S3).
      (* link between the local matrix and the chained vector *)
      assert (LINK : forall e v, CGM_getitem SIZE gms Silly r e = Some v -> (In M v <-> In m' (vec g r e))).
      { intros e v E. assert (He := GE e v E). rewrite (silly_in r e v M He E). split.
        - intros (j & d & u & Eu & Id & Ed).
          destruct (pair_bound _ _ _ WN r e j d He) as (g' & Eg' & J1 & D1 & Iv).
          { apply in_dof_pairs. eauto. }
          rewrite EM in Ed. destruct (offset_inj ns w m' j d Wn J1 Lm' D1 Ed) as (-> & ->).
          assert (g' = g) by congruence. subst. assumption.
        - intros I. exists w, m', (vec g r e). split; [apply nth_vectors; assumption|]. auto. }
      assert (IN : forall e v, CGM_getitem SIZE gms Silly r e = Some v -> In M v -> exists u, gv_of g r e = Some u /\ In m' u).
      { intros e v E I. exists (vec g r e). split; [|apply (LINK e v E); assumption].
        apply (gv_some _ _ _ WN); [assumption|]. apply (GE e v E). }
      assert (OUT : forall e u, gv_of g r e = Some u -> In m' u ->
                 exists v i, CGM_getitem SIZE gms Silly r e = Some v /\ first_index (Nat.eqb m') u = Some i /\
                    first_at v (i + nth w (To_Be_Added 0 lens) 0) M).
      { intros e u Eu Iu. destruct (core_of _ _ _ WN g r e u Hg Eu) as (_ & He & ->).
        destruct (first_index_total m' _ Iu) as (i & Ei).
        assert (EV := silly_value _ _ _ WN r e Hr He). eexists _, i. split; [exact EV|]. split; [assumption|].
        apply first_index_spec in Ei. assert (F := silly_first r e _ w g i m' He EV Eg Ei Lm').
        assert (EL' := PL e He). rewrite <- EL' in F.
        assert (w < length lens) by (rewrite EL', map_length; unfold local_vectors; rewrite map_length; assumption).
        rewrite nth_TBA by assumption. simpl. rewrite EM, Nat.add_comm. assumption. }
      destruct (search N m' (gm_local g r)) as [|x ELE'].
      + intros e v E I. destruct (IN e v E I) as (u & Eu & Iu). destruct N as [n|].
        * destruct S3 as (_ & S3). apply (S3) in Eu; [destruct Eu| |assumption]. simpl. destruct n; [congruence|lia].
        * apply S3 in Eu; [destruct Eu|assumption].
      + destruct (all_some_map_total (fun e => match gv_of g r e with
                   | Some v => option_map (fun i => i + nth w (To_Be_Added 0 lens) 0) (first_index (Nat.eqb m') v)
                   | None => None end) (x :: ELE')) as (idx & EI).
        { intros e I. destruct (S2 e I) as (u & Eu & Iu). rewrite Eu. destruct (OUT e u Eu Iu) as (v & i & _ & -> & _). discriminate. }
        cbv zeta. rewrite EI. apply all_some_map in EI. split; [discriminate|]. split; [assumption|]. split.
        * clear S1 S3. induction EI as [|e i l m0 Ee F IH]; constructor.
          -- destruct (S2 e (or_introl eq_refl)) as (u & Eu & Iu). rewrite Eu in Ee.
             destruct (OUT e u Eu Iu) as (v & i' & Ev & Ei & Fa). rewrite Ei in Ee. simpl in Ee. injection Ee as <-. eauto.
          -- apply IH. intros e' I. apply S2. right. assumption.
        * destruct N as [n|].
          -- destruct S3 as (S3 & S4). split; [assumption|]. intros L e v E I. destruct (IN e v E I) as (u & Eu & Iu). eauto.
          -- intros e v E I. destruct (IN e v E I) as (u & Eu & Iu). eauto.
    - (* in no local range *)
      assert (NF : forall e v, CGM_getitem SIZE gms Silly r e = Some v -> ~ In M v).
      { intros e v E I. assert (He := GE e v E). apply (silly_in r e v M He E) in I.
        destruct I as (j & d & u & Eu & Id & Ed).
        destruct (pair_bound _ _ _ WN r e j d He) as (g' & Eg' & J1 & D1 & Iv).
        { apply in_dof_pairs. eauto. }
        assert (Hj : j < length lrs) by (rewrite LL, <- (wn_len _ _ _ WN); assumption).
        destruct (nth_error lrs j) as [[lo hi]|] eqn:Ej; [|apply nth_error_None in Ej; lia].
        destruct (PR j lo hi Ej) as (_ & _ & P3).
        apply (WS lo hi); [eapply nth_error_In; eassumption|]. rewrite Ed. apply (P3 g' e (vec g' r e)); auto.
        apply (gv_some _ _ _ WN); [eapply nth_error_In; eassumption|assumption]. }
      assumption.
  Qed.
End Find.
