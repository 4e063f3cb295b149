(** Proofs for C66: the dofs of a boundary condition and their values. *)
From Coq Require Import List Arith Bool Lia.
From Verif Require Import Prelude PreludeProofs RingSum SpaceModel SpaceSpec SpaceProofs MeshModel MeshMapModel MeshMapProofs MeshMapProofs2 NumModel NumSpec NumProofs NhtModel NhtProofs2
  AssembleModel GatherModel GatherProofs EwcModel AsmModel StrongModel StrongSpec StrongProofs StrongProofs2 StrongProofs3.
Import ListNotations.

Definition inside {X} (D : list (nat * list X)) (e : nat) : list X := match lookup Nat.eqb e D with Some l => l | None => [] end.
Lemma lookup_extend {X} (d : list (nat * list X)) e l e' : lookup Nat.eqb e' (extend d e l) = if e =? e' then Some (inside d e ++ l) else lookup Nat.eqb e' d.
Proof.
  induction d as [|[a x] d IH]; cbn.
  - unfold inside. cbn. rewrite (Nat.eqb_sym e' e). reflexivity.
  - unfold inside in *. cbn. destruct (a =? e) eqn:E1; cbn.
    + apply Nat.eqb_eq in E1. subst a. rewrite Nat.eqb_refl. rewrite (Nat.eqb_sym e' e). destruct (e =? e'); reflexivity.
    + rewrite (Nat.eqb_sym e a), E1. rewrite IH. destruct (e' =? a) eqn:E2; [|reflexivity]. apply Nat.eqb_eq in E2. subst e'. rewrite (Nat.eqb_sym e a), E1. reflexivity.
Qed.
Lemma keys_extend {X} (d : list (nat * list X)) e l : NoDup (map fst d) -> NoDup (map fst (extend d e l)) /\ forall x, In x (map fst (extend d e l)) <-> In x (map fst d) \/ x = e.
Proof.
  induction d as [|[a x] d IH]; intros N.
  - cbn. split; [repeat constructor; intros []|]. intros y. split; intuition.
  - cbn. inversion N as [|? ? N1 N2]; subst. destruct (a =? e) eqn:E1; cbn.
    + apply Nat.eqb_eq in E1. subst a. split; [exact N|]. intros y. split; intuition.
    + destruct (IH N2) as (I1 & I2). split.
      * constructor; [|exact I1]. rewrite I2. intros [H|H]; [exact (N1 H)|]. subst a. rewrite Nat.eqb_refl in E1. discriminate.
      * intros y. rewrite I2. tauto.
Qed.
Lemma nth_error_map_inv {A B} (f : A -> B) l r y : nth_error (map f l) r = Some y -> exists x, nth_error l r = Some x /\ y = f x.
Proof. rewrite nth_error_map. destruct (nth_error l r) as [x|]; [|discriminate]. intros H. injection H as <-. eauto. Qed.
(** what a run of extends leaves *)
Section Extends.
  Context {X P : Type}.
  Variable elt : P -> nat.
  Variable f : P -> option (list X).
  Definition run (ps : list P) (d : option (list (nat * list X))) : option (list (nat * list X)) :=
    fold_left (fun d ep => match d, f ep with Some d, Some l => Some (extend d (elt ep) l) | _, _ => None end) ps d.
  Lemma run_none ps : run ps None = None. Proof. induction ps; [reflexivity|exact IHps]. Qed.
  Lemma run_some ps : forall d, (forall q, In q ps -> f q <> None) -> exists d', run ps (Some d) = Some d'.
  Proof.
    induction ps as [|q ps IH]; intros d H; [exists d; reflexivity|]. cbn. destruct (f q) as [l|] eqn:E; [|exfalso; apply (H q); [left; reflexivity|exact E]]. apply IH. intros; apply H; right; assumption.
  Qed.
  Definition part_of (e : nat) (q : P) : list X := if elt q =? e then match f q with Some l => l | None => [] end else [].
  Lemma run_ok ps : forall d d', NoDup (map fst d) -> run ps (Some d) = Some d' ->
    NoDup (map fst d') /\ (forall e, In e (map fst d') <-> In e (map fst d) \/ exists q, In q ps /\ elt q = e) /\
    (forall e, inside d' e = inside d e ++ flat_map (part_of e) ps) /\ (forall q, In q ps -> f q <> None).
  Proof.
    induction ps as [|q ps IH]; intros d d' N E.
    - injection E as <-. split; [exact N|]. split; [|split; [intros; cbn; rewrite app_nil_r; reflexivity|intros q []]]. intros e. split; [auto|]. intros [H|(q & [] & _)]. exact H.
    - cbn in E. destruct (f q) as [l|] eqn:Eq; [|fold (run ps None) in E; rewrite run_none in E; discriminate]. destruct (keys_extend d (elt q) l N) as (N1 & N2).
      destruct (IH _ _ N1 E) as (A & B & C & D0). split; [exact A|]. split; [|split].
      + intros e. rewrite B, N2. split.
        * intros [[H| ->]|(q' & Hq & He)]; [auto|right; exists q; split; [left; reflexivity|reflexivity]|right; exists q'; split; [right; exact Hq|exact He]].
        * intros [H|(q' & [->|Hq] & He)]; [auto|left; right; auto|right; eauto].
      + intros e. rewrite C. cbn [flat_map]. rewrite app_assoc. f_equal. unfold part_of at 1. rewrite Eq. unfold inside at 1. rewrite lookup_extend. destruct (elt q =? e) eqn:E2.
        * apply Nat.eqb_eq in E2. subst e. reflexivity.
        * rewrite app_nil_r. reflexivity.
      + intros q' [<-|Hq]; [congruence|auto].
  Qed.
End Extends.

Lemma parse_dofs_run sd iEP : parse_dofs sd iEP = run fst (fun ep => sd (snd ep)) iEP (Some []).
Proof. reflexivity. Qed.
Lemma parse_dofs_ok sd iEP D : parse_dofs sd iEP = Some D -> NoDup (map fst D) /\ (forall e, In e (map fst D) <-> exists s, In (e, s) iEP) /\
  forall e d, In d (inside D e) <-> exists s l, In (e, s) iEP /\ sd s = Some l /\ In d l.
Proof.
  rewrite parse_dofs_run. intros E. destruct (run_ok fst (fun ep => sd (snd ep)) iEP [] D (NoDup_nil _) E) as (A & B & C & _). split; [exact A|]. split.
  - intros e. rewrite B. split; [intros [[]|((e' & s) & H & He)]; cbn in He; subst; eauto|]. intros (s & H). right. exists (e, s). auto.
  - intros e d. rewrite C. cbn [inside lookup app]. unfold inside. cbn [lookup app]. rewrite in_flat_map. split.
    + intros ((e' & s) & H & Hd). unfold part_of in Hd. cbn [fst snd] in Hd. destruct (e' =? e) eqn:E2; [|destruct Hd]. apply Nat.eqb_eq in E2. subst e'. destruct (sd s) as [l|] eqn:El; [|destruct Hd]. eauto.
    + intros (s & l & H & El & Hd). exists (e, s). split; [exact H|]. unfold part_of. cbn [fst snd]. rewrite Nat.eqb_refl, El. exact Hd.
Qed.

(** ** the parts *)
Lemma in_range_sides m b e s : (forall e row, In (e, row) m -> length row = 6) ->
  (In (e, s) (range_of_element_sides m b) <-> fst s < 3 /\ exists row, In (e, row) m /\ nth_error row (2 * fst s + (if snd s then 1 else 0)) = Some (Bd b)).
Proof.
  intros L. unfold range_of_element_sides. rewrite in_flat_map. split.
  - intros ((e' & row) & Hr & H). cbn [fst snd] in H. apply in_flat_map in H. destruct H as ((s' & w) & Hw & H). cbn [fst snd] in H. destruct w as [f|n]; [destruct H|]. destruct (n =? b) eqn:E; [|destruct H]. apply Nat.eqb_eq in E. subst n.
    destruct H as [H|[]]. injection H as -> ->. assert (L6 := L e row Hr).
    assert (G : fst s < 3). { apply sides_In. eapply in_combine_l. exact Hw. }
    split; [exact G|]. exists row. split; [exact Hr|].
    destruct row as [|w0 [|w1 [|w2 [|w3 [|w4 [|w5 [|]]]]]]]; try discriminate. cbn in Hw. repeat (destruct Hw as [Hw|Hw]; [injection Hw as <- ->; reflexivity|]). destruct Hw.
  - intros (G & row & Hr & E). exists (e, row). split; [exact Hr|]. cbn [fst snd]. apply in_flat_map. exists (s, Bd b). cbn [fst snd]. rewrite Nat.eqb_refl. split; [|left; reflexivity].
    assert (L6 := L e row Hr). apply nth_sides in G. unfold side_index in G. eapply nth_error_In with (n := 2 * fst s + (if snd s then 1 else 0)).
    clear - G E L6. destruct row as [|w0 [|w1 [|w2 [|w3 [|w4 [|w5 [|]]]]]]]; try discriminate.
    assert (Z : 2 * fst s + (if snd s then 1 else 0) < 6) by (rewrite <- L6; apply nth_error_Some; rewrite E; discriminate).
    set (i := 2 * fst s + (if snd s then 1 else 0)) in *. clearbody i. do 6 (destruct i as [|i]; [cbn in *; congruence|]). lia.
Qed.
Lemma in_row_names row b : In b (row_names row) <-> In (Bd b) row.
Proof.
  unfold row_names. rewrite in_flat_map. split.
  - intros (w & H & I). destruct w as [f|n]; [destruct I|]. destruct I as [->|[]]. exact H.
  - intros H. exists (Bd b). split; [exact H|left; reflexivity].
Qed.
Lemma beside_names ms b : (forall e row, In (e, row) (concat ms) -> length row = 6) ->
  (In b (flat_map (fun er => row_names (snd er)) (concat ms)) <-> exists r e s, beside_boundary ms (eq b) r e s).
Proof.
  intros L. rewrite in_flat_map. split.
  - intros ((e & row) & H & I). cbn [snd] in I. apply in_row_names in I. pose proof (L _ _ H) as L6. apply in_concat in H. destruct H as (m & Hm & H). apply In_nth_error in Hm. destruct Hm as (r & Hr).
    apply In_nth_error in I. destruct I as (i & Hi). exists r, e, (i / 2, Nat.odd i). unfold beside_boundary. cbn [fst snd].
    assert (Hi6 : i < 6) by (rewrite <- L6; apply nth_error_Some; rewrite Hi; discriminate). split; [apply Nat.div_lt_upper_bound; lia|].
    exists m, row, b. split; [exact Hr|]. split; [exact H|]. split; [|reflexivity]. replace (2 * (i / 2) + (if Nat.odd i then 1 else 0)) with i; [exact Hi|].
    clear - Hi6. do 6 (destruct i as [|i]; [reflexivity|]). lia.
  - intros (r & e & s & _ & m & row & b' & Hm & H & E & <-). exists (e, row). split; [apply in_concat; exists m; split; [eapply nth_error_In; exact Hm|exact H]|]. cbn [snd]. apply in_row_names. eapply nth_error_In. exact E.
Qed.
Lemma involved_ok tuple bnames ms q : (forall l x, In x (tuple l) <-> In x l) -> (forall e row, In (e, row) (concat ms) -> length row = 6) ->
  ((exists iEPs, involved_parts tuple bnames ms q = Some iEPs) <->
    (forall b r e s, beside_boundary ms (eq b) r e s -> In b bnames) /\ match q with All => True | Those l => forall b, In b l -> exists r e s, beside_boundary ms (eq b) r e s end) /\
  forall iEPs, involved_parts tuple bnames ms q = Some iEPs -> length iEPs = length ms /\
    forall r iEP, nth_error iEPs r = Some iEP -> forall e s, In (e, s) iEP <-> beside_boundary ms (asked q) r e s.
Proof.
  intros TP L. assert (BN := fun b => beside_names ms b L). set (nm := flat_map (fun er => row_names (snd er)) (concat ms)) in *.
  assert (MB : forall l, forallb (fun n => mem n bnames) l = true <-> forall b, In b l -> In b bnames).
  { intros l. rewrite forallb_forall. split; intros H b I; [apply mem_In|apply mem_In]; auto. }
  split.
  - unfold involved_parts, boundary_names. fold nm. split.
    + intros (iEPs & E). destruct (forallb (fun n => mem n bnames) nm) eqn:F; [|discriminate]. split.
      * intros b r e s H. apply (proj1 (MB nm) F). apply BN. eauto.
      * destruct q as [|l]; [exact I|]. intros b Hb. apply BN. destruct (forallb (fun b => mem b (nodup Nat.eq_dec nm)) l) eqn:F2; [|discriminate]. rewrite forallb_forall in F2. specialize (F2 b Hb). apply mem_In in F2. apply nodup_In in F2. exact F2.
    + intros (H1 & H2). assert (F : forallb (fun n => mem n bnames) nm = true). { apply MB. intros b Hb. apply BN in Hb. destruct Hb as (r & e & s & Hb). eauto. }
      rewrite F. destruct q as [|l].
      * assert (F2 : forallb (fun b => mem b (nodup Nat.eq_dec nm)) (tuple (nodup Nat.eq_dec nm)) = true). { apply forallb_forall. intros b Hb. apply mem_In. apply TP. exact Hb. }
        rewrite F2. eauto.
      * assert (F2 : forallb (fun b => mem b (nodup Nat.eq_dec nm)) l = true). { apply forallb_forall. intros b Hb. apply mem_In. apply nodup_In. apply BN. auto. }
        rewrite F2. eauto.
  - intros iEPs E. unfold involved_parts, boundary_names in E. fold nm in E. destruct (forallb (fun n => mem n bnames) nm) eqn:F; [|discriminate].
    set (bns := match q with All => tuple (nodup Nat.eq_dec nm) | Those l => l end) in *. destruct (forallb (fun b => mem b (nodup Nat.eq_dec nm)) bns) eqn:F2; [|discriminate]. injection E as <-. split; [apply map_length|].
    intros r iEP Hr e s. apply nth_error_map_inv in Hr. destruct Hr as (m & Em & ->). rewrite in_flat_map.
    assert (L' : forall e row, In (e, row) m -> length row = 6) by (intros e' row H; apply (L e'); apply in_concat; exists m; split; [eapply nth_error_In; exact Em|exact H]).
    split.
    + intros (b & Hb & H). apply in_range_sides in H; [|exact L']. destruct H as (G & row & Hrow & H). split; [exact G|]. exists m, row, b. repeat split; auto. unfold asked. destruct q; [exact I|exact Hb].
    + intros (G & m' & row & b & Em' & Hrow & H & Ha). assert (m' = m) by congruence. subst m'. exists b. split; [|apply in_range_sides; [exact L'|]; split; [exact G|eauto]].
      unfold bns. destruct q as [|l]; [|exact Ha]. apply TP. apply nodup_In. apply BN. exists r, e, s. split; [exact G|]. exists m, row, b. auto.
Qed.

Lemma dofs_ok tuple bnames ms q k p : (forall l x, In x (tuple l) <-> In x l) -> (forall e row, In (e, row) (concat ms) -> length row = 6) ->
  length p = 3 -> Forall (fun n => 1 <= n) p ->
  forall iEPs, involved_parts tuple bnames ms q = Some iEPs -> length iEPs = length ms /\
    forall r iEP, nth_error iEPs r = Some iEP -> exists D, parse_dofs (local_side k p) iEP = Some D /\ NoDup (map fst D) /\
      (forall e, In e (map fst D) -> exists m row, nth_error ms r = Some m /\ In (e, row) m) /\
      forall e d, In d (inside D e) <-> boundary_dof p (types k 3) ms (asked q) r e d.
Proof.
  intros TP L L3 Fp iEPs E. destruct (proj2 (involved_ok tuple bnames ms q TP L) iEPs E) as (LL & HP). split; [exact LL|]. intros r iEP Hr. specialize (HP r iEP Hr).
  destruct p as [|px [|py [|pz [|]]]]; try discriminate.
  assert (LS : forall s, fst s < 3 -> local_side k [px; py; pz] s = Some (map (SpaceProofs.pos (cells [px; py; pz] (types k 3))) (filter (on_side [px; py; pz] s) (cells [px; py; pz] (types k 3))))).
  { intros s Hs. apply local_side_ok; [exact Fp|]. apply sides_In in Hs. exact Hs. }
  destruct (run_some fst (fun ep => local_side k [px; py; pz] (snd ep)) iEP []) as (D & ED).
  { intros (e & s) H. cbn [snd]. apply HP in H. intros X. rewrite LS in X by (apply H). discriminate. }
  exists D. split; [exact ED|]. destruct (parse_dofs_ok _ _ _ ED) as (A & B & C). split; [exact A|]. split.
  - intros e He. apply B in He. destruct He as (s & Hs). apply HP in Hs. destruct Hs as (_ & m & row & b & Em & Hrow & _). eauto.
  - intros e d. rewrite C. unfold boundary_dof. split.
    + intros (s & l & Hs & El & Hd). apply HP in Hs. pose proof (proj1 Hs) as G. rewrite (LS s G) in El. injection El as <-. apply in_map_iff in Hd. destruct Hd as (x & <- & Hx). apply filter_In in Hx. destruct Hx as (Hx & Ho).
      exists s, x. split; [exact Hs|]. split; [apply pos_nth; exact Hx|exact Ho].
    + intros (s & x & Hs & Hx & Ho). pose proof (proj1 Hs) as G. exists s, (map (SpaceProofs.pos (cells [px; py; pz] (types k 3))) (filter (on_side [px; py; pz] s) (cells [px; py; pz] (types k 3)))).
      split; [apply HP; exact Hs|]. split; [apply LS; exact G|]. apply in_map_iff. exists x. split; [|apply filter_In; split; [eapply nth_error_In; exact Hx|exact Ho]].
      apply pos_eq; [|exact Hx]. apply NoDup_cells. exact (types_are_ok k [px; py; pz]).
Qed.

(** ** the values *)
Section Values.
  Variable K : CRing.
  Lemma take_ok (c : list K) (w : nat -> K) l : (forall d, In d l -> nth_error c d = Some (w d)) -> take_values K c l = Some (map w l).
  Proof. unfold take_values. induction l as [|d l IH]; intros H; [reflexivity|]. cbn. rewrite (H d) by (left; reflexivity). rewrite IH by (intros; apply H; right; assumption). reflexivity. Qed.
  Lemma flat_map_map {A B C} (f : A -> list B) (h : B -> C) l : map h (flat_map f l) = flat_map (fun a => map h (f a)) l.
  Proof. induction l; [reflexivity|]. cbn. rewrite map_app, IHl. reflexivity. Qed.
  Lemma values_ok sd iEP D w lc : (forall e s l, In (e, s) iEP -> sd s = Some l -> l <> []) -> parse_dofs sd iEP = Some D -> carries sd D iEP w lc ->
    exists C, parse_cochains K D iEP lc = Some C /\ (forall e l, In (e, l) D -> lookup Nat.eqb e C = Some (map (w e) l)).
  Proof.
    intros NE ED HC. destruct (parse_dofs_ok _ _ _ ED) as (ND & KD & _). destruct lc as [c|c]; cbn [carries parse_cochains] in *.
    - exists (map (fun ed => (fst ed, map (w (fst ed)) (snd ed))) D). split.
      + apply all_some_pairs. intros (e & l) H. cbn [fst snd].
        destruct l as [|d l].
        * exfalso. apply in_map with (f := fst) in H as H1. apply KD in H1. destruct H1 as (s & Hs). rewrite parse_dofs_run in ED.
          destruct (run_ok fst (fun ep => sd (snd ep)) iEP [] D (NoDup_nil _) ED) as (_ & _ & IN & NN). specialize (NN _ Hs). cbn [snd] in NN. destruct (sd s) as [l0|] eqn:El; [|congruence].
          specialize (NE e s l0 Hs El). destruct l0 as [|d0 l0]; [congruence|]. destruct (parse_dofs_ok sd iEP D ED) as (_ & _ & Q).
          assert (Z : In d0 (inside D e)) by (apply Q; exists s, (d0 :: l0); repeat split; auto; left; reflexivity). unfold inside in Z. apply GatherProofs.lookup_In_iff in H; [|exact ND]. rewrite H in Z. destruct Z.
        * destruct (HC e (d :: l) d H ltac:(left; reflexivity)) as (ce & Ec & _). rewrite Ec. rewrite (take_ok ce (w e)); [reflexivity|].
          intros d' Hd'. destruct (HC e (d :: l) d' H Hd') as (ce' & Ec' & En). congruence.
      + intros e l H. apply GatherProofs.lookup_In_iff; [rewrite map_map; cbn [fst]; exact ND|]. apply in_map_iff. exists (e, l). auto.
    - rewrite parse_dofs_run in ED. destruct (run_ok fst (fun ep => sd (snd ep)) iEP [] D (NoDup_nil _) ED) as (_ & KK & IN & NN).
      set (f := fun ep : part => match c (fst ep) with Some ce => ce (snd ep) | None => None end).
      assert (FE : forall q, In q iEP -> f q = match sd (snd q) with Some l => Some (map (w (fst q)) l) | None => None end).
      { intros (e & s) H. unfold f. cbn [fst snd]. specialize (NN _ H). cbn [snd] in NN. destruct (sd s) as [l|] eqn:El; [|congruence]. destruct (HC e s l H El) as (ce & Ec & Es). rewrite Ec. exact Es. }
      assert (RR : forall ps d, (forall q, In q ps -> In q iEP) -> fold_left (fun d ep => match d, c (fst ep), lookup Nat.eqb (fst ep) D with
                               | Some d, Some ce, Some (_ :: _) => match ce (snd ep) with Some l => Some (extend d (fst ep) l) | None => None end
                               | _, _, _ => None end) ps d = run fst f ps d).
      { induction ps as [|q ps IH]; intros d H; [reflexivity|]. cbn [fold_left]. rewrite IH by (intros; apply H; right; assumption). unfold run. cbn [fold_left]. f_equal.
        destruct d as [d|]; [|reflexivity]. destruct q as (e & s). cbn [fst snd]. assert (Hq : In (e, s) iEP) by (apply H; left; reflexivity). unfold f. cbn [fst snd].
        destruct (c e) as [ce|] eqn:Ec; [|reflexivity].
        assert (Z : inside D e <> []). { rewrite IN. unfold inside at 1. cbn [lookup app]. intros Z. specialize (NN _ Hq). cbn [snd] in NN. destruct (sd s) as [l|] eqn:El; [|congruence].
          specialize (NE e s l Hq El). destruct l as [|d0 l]; [congruence|]. assert (Q : In d0 (flat_map (part_of fst (fun ep => sd (snd ep)) e) iEP)). { apply in_flat_map. exists (e, s). split; [exact Hq|]. unfold part_of. cbn [fst snd]. rewrite Nat.eqb_refl, El. left; reflexivity. }
          rewrite Z in Q. destruct Q. }
        unfold inside in Z. destruct (lookup Nat.eqb e D) as [[|x l]|]; [congruence| |congruence]. reflexivity. }
      destruct (run_some fst f iEP []) as (C & EC).
      { intros q Hq. rewrite (FE q Hq). specialize (NN q Hq). cbv beta in NN. destruct (sd (snd q)); [discriminate|congruence]. }
      exists C. split; [rewrite RR by auto; exact EC|]. destruct (run_ok fst f iEP [] C (NoDup_nil _) EC) as (NC & KC & INC & _).
      intros e l H. assert (He : In e (map fst C)) by (apply KC; right; apply in_map with (f := fst) in H; cbn in H; apply KK in H; destruct H as [[]|H]; exact H).
      apply GatherProofs.lookup_keys in He. destruct He as (v & Ev). rewrite Ev. f_equal.
      assert (v = inside C e) by (unfold inside; rewrite Ev; reflexivity). subst v. rewrite INC. assert (l = inside D e). { unfold inside. apply GatherProofs.lookup_In_iff in H; [|exact ND]. rewrite H. reflexivity. }
      subst l. rewrite IN, map_app, flat_map_map. unfold inside. cbn [lookup map app]. clear - FE. induction iEP as [|q ps IH]; [reflexivity|]. cbn [flat_map]. rewrite IH by (intros; apply FE; right; assumption). f_equal.
      unfold part_of. destruct (fst q =? e) eqn:E; [|reflexivity]. apply Nat.eqb_eq in E. subst e. rewrite (FE q) by (left; reflexivity). destruct (sd (snd q)); reflexivity.
  Qed.
  Lemma last_given_none {X} l (vs : list X) d : ~ In d l -> last_given l vs d = None.
  Proof.
    revert vs. induction l as [|b l IH]; intros vs N; [reflexivity|]. destruct vs as [|v vs]; [reflexivity|]. cbn [last_given]. rewrite IH by (intros H; apply N; right; exact H).
    destruct (b =? d) eqn:E; [|reflexivity]. apply Nat.eqb_eq in E. exfalso. apply N. left. exact E.
  Qed.
  Lemma last_given_map (w : nat -> K) l d : In d l -> last_given l (map w l) d = Some (w d).
  Proof.
    induction l as [|a l IH]; intros H; [destruct H|]. cbn [map last_given]. destruct (in_dec Nat.eq_dec d l) as [I|N].
    - rewrite (IH I). reflexivity.
    - destruct H as [->|H]; [|contradiction]. rewrite Nat.eqb_refl, last_given_none by exact N. reflexivity.
  Qed.
End Values.
