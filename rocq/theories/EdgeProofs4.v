(** Proofs about EdgeModel: locations, type counts and edge forms of meshes. *)
From Coq Require Import List Arith Bool Lia Sorted Relations.
From Verif Require Import Prelude PreludeProofs SpaceModel SpaceSpec SpaceProofs MeshModel MeshSpec MeshMapSpec MeshProofs MeshMapModel MeshMapProofs2 TraceModel TraceSpec TraceProofs TraceProofs2 TraceProofs3 NumModel NumSpec NumProofs NumProofs2 NumProofs3 NumProofs4 NumProofs5 NumProofs6 EdgeModel EdgeSpec EdgeProofs EdgeProofs2 EdgeProofs3.
Import ListNotations.

Lemma touching_types p ax up x y : touching p ax up x y -> map fst x = map fst y.
Proof.
  intros (A & B & C). apply list_ext_nth_error. intros a. rewrite !nth_error_map. destruct (Nat.eq_dec a ax) as [->|NE]; [rewrite A, B; reflexivity|rewrite (C a NE); reflexivity].
Qed.
Lemma identified_types p ts nbr n a b : identified p ts nbr n a b -> map fst (snd a) = map fst (snd b).
Proof. induction 1 as [a b (_ & _ & ax & up & _ & T)|a|a b _ IH|a b c _ IH1 _ IH2]; [eapply touching_types; exact T|reflexivity|auto|congruence]. Qed.
Lemma edge_place_type i x : nth_error (cells [1; 1; 1] edges3) i = Some x -> i < 12 /\ map fst x = nth (i / 4) edges3 [].
Proof.
  intros H. assert (L : i < 12) by (change 12 with (length (cells [1; 1; 1] edges3)); apply nth_error_Some; congruence). split; [exact L|].
  do 12 (destruct i as [|i]; [injection H as <-; reflexivity|]). lia.
Qed.
Lemma edge_type_inj a b : a < 3 -> b < 3 -> nth a edges3 [] = nth b edges3 [] -> a = b.
Proof. intros A B. destruct a as [|[|[|a]]]; destruct b as [|[|[|b]]]; try lia; cbn; intros H; try reflexivity; discriminate. Qed.

Section Naive.
  Variables (ms : list emap) (N : nat).
  Hypothesis HL : map fst (concat ms) = seq 0 N.
  Hypothesis HR : forall e row, In (e, row) (concat ms) -> length row = 6.
  Lemma elements_facts k gms : naive k [1; 1; 1] ms = Some gms ->
    map fst (concat gms) = seq 0 N /\ map (map fst) gms = map (map fst) ms /\ (forall e v, In (e, v) (concat gms) -> length v = length (cells [1; 1; 1] (types k 3))) /\ consecutive (concat gms) (global_num gms) /\ prefixed (concat gms).
  Proof.
    intros E. destruct (naive_total k [1; 1; 1] ms N HL HR gms E) as ((T1 & T2) & M & K & C). rewrite (global_num_ok gms K C). refine (conj T1 (conj M (conj T2 (conj C _)))). exact (naive_prefixed k [1; 1; 1] ms N HL HR gms E).
  Qed.
  Lemma entry_numbered k gms e i t : naive k [1; 1; 1] ms = Some gms -> entry (concat gms) e i t -> exists x, nth_error (cells [1; 1; 1] (types k 3)) i = Some x /\ cell_of [1; 1; 1] (types k 3) N (e, x) /\ numbered [1; 1; 1] (types k 3) (concat gms) (e, x) t.
  Proof.
    intros E (v & Hv & Hi). destruct (elements_facts k gms E) as (T1 & _ & T2 & _). assert (L : i < length (cells [1; 1; 1] (types k 3))) by (rewrite <- (T2 e v Hv); apply nth_error_Some; congruence).
    destruct (nth_error (cells [1; 1; 1] (types k 3)) i) as [x|] eqn:Ex; [|apply nth_error_None in Ex; lia]. exists x. refine (conj eq_refl (conj (conj _ _) _)).
    - assert (X := in_map fst _ _ Hv). rewrite T1 in X. apply in_seq in X. cbn [fst] in *. lia.
    - eapply nth_error_In. exact Ex.
    - exists v, i. auto.
  Qed.
  Lemma same_direction gms e i f j t : naive F1 [1; 1; 1] ms = Some gms -> entry (concat gms) e i t -> entry (concat gms) f j t -> i / 4 = j / 4.
  Proof.
    intros E A B. destruct (entry_numbered F1 gms e i t E A) as (x & X1 & X2 & X3). destruct (entry_numbered F1 gms f j t E B) as (y & Y1 & Y2 & Y3).
    assert (ID := naive_sound F1 [1; 1; 1] ms N HL HR gms E _ _ t X2 Y2 X3 Y3). apply identified_types in ID. cbn [snd] in ID.
    change (types F1 3) with edges3 in *. apply edge_place_type in X1, Y1. destruct X1 as [X1 X4], Y1 as [Y1 Y4]. rewrite X4, Y4 in ID. apply edge_type_inj in ID; [exact ID| |]; apply Nat.div_lt_upper_bound; lia.
  Qed.
  Theorem edge_locations gms G : edge_elements ms = Some (gms, G) -> exists ess, locations 4 edge_sides ms gms = Some ess /\
    Forall2 (fun g es => NoDup (map fst es) /\ (forall t, In t (map fst es) <-> exists e i, entry g e i t) /\
      forall t r, In (t, r) es -> places r <> [] /\ (forall e i, In (e, i) (places r) -> entry (concat gms) e i t) /\ (at_most_places (concat gms) 4 t -> right_record edges3 (concat ms) (concat gms) t r)) gms ess.
  Proof.
    unfold edge_elements. destruct (naive F1 [1; 1; 1] ms) as [gms'|] eqn:E; [|discriminate]. destruct (4 <=? global_num gms'); [|discriminate]. intros Q. assert (gms' = gms) by congruence. subst gms'.
    destruct (elements_facts F1 gms E) as (T1 & M & T2 & _). apply (locations_ok 4 edge_sides edges3 ms gms N); auto; try lia. apply edge_sides_ok.
  Qed.
  Theorem node_locations gms G : node_elements ms = Some (gms, G) -> exists ess, locations 8 node_sides ms gms = Some ess /\
    Forall2 (fun g es => NoDup (map fst es) /\ (forall t, In t (map fst es) <-> exists e i, entry g e i t) /\
      forall t r, In (t, r) es -> places r <> [] /\ (forall e i, In (e, i) (places r) -> entry (concat gms) e i t) /\ (at_most_places (concat gms) 8 t -> right_record nodes3 (concat ms) (concat gms) t r)) gms ess.
  Proof.
    unfold node_elements. destruct (naive F0 [1; 1; 1] ms) as [gms'|] eqn:E; [|discriminate]. cbn [option_map]. intros Q. assert (gms' = gms) by congruence. subst gms'.
    destruct (elements_facts F0 gms E) as (T1 & M & T2 & _). apply (locations_ok 8 node_sides nodes3 ms gms N); auto; try lia. apply node_sides_ok.
  Qed.
  Definition dir_of (gm : list (nat * list nat)) (t : nat) : nat := match occ t (all_places gm) with q :: _ => snd q / 4 | [] => 0 end.
  Lemma dir_of_ok gms e i t : naive F1 [1; 1; 1] ms = Some gms -> entry (concat gms) e i t -> dir_of (concat gms) t = i / 4.
  Proof.
    intros E H. unfold dir_of. destruct (occ t (all_places (concat gms))) as [|[f j] l] eqn:O.
    - exfalso. assert (X : In (e, i) (occ t (all_places (concat gms)))) by (apply in_occ, in_all_places; exact H). rewrite O in X. destruct X.
    - cbn [snd]. apply (same_direction gms f j e i t E); [|exact H]. apply in_all_places, in_occ. rewrite O. now left.
  Qed.
  Lemma drop_right gms ess : Forall2 (fun g es => NoDup (map fst es) /\ (forall t, In t (map fst es) <-> exists e i, entry g e i t) /\
      forall t r, In (t, r) es -> places r <> [] /\ (forall e i, In (e, i) (places r) -> entry (concat gms) e i t) /\ (at_most_places (concat gms) 4 t -> right_record edges3 (concat ms) (concat gms) t r)) gms ess ->
    Forall2 (fun g (es : list (nat * prec)) => NoDup (map fst es) /\ (forall t, In t (map fst es) <-> exists e i, entry g e i t) /\ forall t r, In (t, r) es -> places r <> [] /\ forall e i, In (e, i) (places r) -> entry (concat gms) e i t) gms ess.
  Proof. generalize (concat gms). intros gm F. induction F as [|g es l m (A & B & C) _ IH]; constructor; [|exact IH]. refine (conj A (conj B _)). intros t r Hr. destruct (C t r Hr) as (D1 & D2 & _). auto. Qed.
  Theorem edge_types_ok gms G ess : edge_elements ms = Some (gms, G) -> locations 4 edge_sides ms gms = Some ess ->
    exists dir tas, edge_amounts G ess = Some tas /\ (forall e j t, entry (concat gms) e j t -> dir t = j / 4) /\
      Forall2 (fun g ta => NoDup (map fst ta) /\ forall t c, In (t, c) ta <-> (exists e j, entry g e j t) /\ c = (faces_before dir 0 t, faces_before dir 1 t, faces_before dir 2 t)) gms tas.
  Proof.
    intros EE EL. destruct (edge_locations gms G EE) as (ess' & EL' & F). assert (ess' = ess) by congruence. subst ess'. clear EL'.
    unfold edge_elements in EE. destruct (naive F1 [1; 1; 1] ms) as [gms'|] eqn:E; [|discriminate]. destruct (4 <=? global_num gms'); [|discriminate]. assert (gms' = gms) by congruence. subst gms'. assert (EG : global_num gms = G) by congruence. clear EE.
    destruct (elements_facts F1 gms E) as (T1 & M & T2 & C & P). rewrite EG in C. apply drop_right in F. change (length (cells [1; 1; 1] (types F1 3))) with 12 in T2.
    assert (HD : forall e i t, entry (concat gms) e i t -> dir_of (concat gms) t = i / 4) by (intros e i t X; apply (dir_of_ok gms e i t E X)).
    exists (dir_of (concat gms)). eexists. split; [exact (amounts_ok gms N G ess T1 C P T2 F _ HD)|]. split; [exact HD|]. clear - F.
    generalize dependent (dir_of (concat gms)). intros dir. induction F as [|g es l m (A & B & _) _ IH]; cbn [map]; constructor; [|exact IH].
    assert (SF : map fst (map (fun i => (i, counts dir i)) (sorted (map fst es))) = sorted (map fst es)) by (rewrite map_map; cbn; apply map_id).
    split.
    - rewrite SF. apply sorted_sorted in A. clear - A. induction A as [|z l Q1 Q2 Q3]; constructor; [|assumption]. rewrite Forall_forall in Q3. intros X. apply Q3 in X. lia.
    - intros t c. rewrite in_map_iff, <- B. split.
      + intros (i & Q & X). apply (proj1 (sorted_In _ _)) in X. assert (i = t) by congruence. subst i. split; [exact X|]. assert (Y := f_equal snd Q). symmetry. exact Y.
      + intros [X ->]. exists t. split; [reflexivity|]. apply sorted_In. exact X.
  Qed.
  Theorem edge_numbering_ok gms G D : edge_elements ms = Some (gms, G) ->
    exists outs n, edge_numbering D ms = Some outs /\ map (map fst) (map fst outs) = map (map fst) ms /\
      (let gm := concat (map fst outs) in
       (forall e v, In (e, v) gm -> length v = 4 * (D 0 + D 1 + D 2)) /\
       (forall e j i d f k l d', edge_dof D gm e j i d -> edge_dof D gm f k l d' -> d = d' <-> i = l /\ exists t, entry (concat gms) e j t /\ entry (concat gms) f k t) /\
       (forall d, d < n <-> exists e j i, edge_dof D gm e j i d)) /\
      Forall (fun o => snd o = length (nodup Nat.eq_dec (flat_map snd (fst o)))) outs.
  Proof.
    intros EE. destruct (edge_locations gms G EE) as (ess & EL & F). unfold edge_numbering. rewrite EE, EL.
    unfold edge_elements in EE. destruct (naive F1 [1; 1; 1] ms) as [gms'|] eqn:E; [|discriminate]. destruct (4 <=? global_num gms'); [|discriminate]. assert (gms' = gms) by congruence. subst gms'. assert (EG : global_num gms = G) by congruence. clear EE.
    destruct (elements_facts F1 gms E) as (T1 & M & T2 & C & P). rewrite EG in C. apply drop_right in F. change (length (cells [1; 1; 1] (types F1 3))) with 12 in T2.
    assert (HD : forall e i t, entry (concat gms) e i t -> dir_of (concat gms) t = i / 4) by (intros e i t X; apply (dir_of_ok gms e i t E X)).
    rewrite (amounts_ok gms N G ess T1 C P T2 F _ HD). destruct (edge_dofs_ok gms N G ess T1 C T2 F _ HD D) as (A1 & A2 & A3 & A4). rewrite A1. eexists. eexists. split; [reflexivity|].
    assert (MF : forall f : list (nat * list nat) -> list (nat * list nat), map fst (map (fun g => (f g, local_num (f g))) gms) = map f gms) by (intros f; rewrite map_map; reflexivity). rewrite MF. split; [|split].
    - rewrite <- M, map_map. apply map_ext. intros g. rewrite map_map. reflexivity.
    - cbv zeta. refine (conj A2 (conj A3 A4)).
    - apply Forall_forall. intros o Ho. apply in_map_iff in Ho. destruct Ho as (g & <- & _). reflexivity.
  Qed.
End Naive.

(** * in a box an edge is at four places at most, a node at eight *)
Section Box.
  Variables (k : nform) (lay : list nat) (per : nat -> bool) (num : list nat -> nat) (gm : list (nat * list nat)) (N : nat).
  Hypothesis H3 : length lay = 3.
  Hypothesis HP : forall a, a < 3 -> 1 <= nth a lay 0.
  Hypothesis HT : total [1; 1; 1] (types k 3) N gm.
  Hypothesis HC : conforming [1; 1; 1] (types k 3) N gm (same_box lay [1; 1; 1] per num).
  Lemma box_entry e i t : entry gm e i t -> exists x, nth_error (cells [1; 1; 1] (types k 3)) i = Some x /\ cell_of [1; 1; 1] (types k 3) N (e, x) /\ numbered [1; 1; 1] (types k 3) gm (e, x) t.
  Proof.
    intros (v & Hv & Hi). destruct HT as (T1 & T2). assert (L : i < length (cells [1; 1; 1] (types k 3))) by (rewrite <- (T2 e v Hv); apply nth_error_Some; congruence).
    destruct (nth_error (cells [1; 1; 1] (types k 3)) i) as [x|] eqn:Ex; [|apply nth_error_None in Ex; lia]. exists x. refine (conj eq_refl (conj (conj _ _) _)).
    - assert (X := in_map fst _ _ Hv). rewrite T1 in X. apply in_seq in X. cbn [fst] in *. lia.
    - eapply nth_error_In. exact Ex.
    - exists v, i. auto.
  Qed.
  Lemma same_place e f i t : entry gm e i t -> entry gm f i t -> e = f.
  Proof.
    intros A B. destruct (box_entry e i t A) as (x & X1 & X2 & X3). destruct (box_entry f i t B) as (y & Y1 & Y2 & Y3). assert (x = y) by congruence. subst y.
    destruct (proj1 (HC _ _ t t X2 Y2 X3 Y3) eq_refl) as (idx & idx' & I1 & I2 & I3 & I4 & EB). cbn [fst snd] in *. rewrite <- I3, <- I4. f_equal.
    assert (L1 := F2_length _ _ _ I1). assert (L2 := F2_length _ _ _ I2). apply nth_ext with (d := 0) (d' := 0); [lia|]. intros a Ha.
    unfold box_cell in EB. cbn [length] in EB. assert (EA := f_equal (fun l => snd (nth a l (false, 0))) EB). cbn beta in EA. rewrite !nth_map_lt with (d' := 0) in EA by (rewrite seq_length; lia). rewrite !nth_seq0 in EA by lia. cbn [fst snd] in EA.
    assert (P1 : nth a [1; 1; 1] 0 = 1) by (destruct a as [|[|[|a]]]; try reflexivity; lia). rewrite P1 in EA. unfold coord in EA. rewrite !Nat.mul_1_r in EA.
    assert (LA := F2_lt_nth _ _ a I1 ltac:(lia)). assert (LB := F2_lt_nth _ _ a I2 ltac:(lia)). assert (LP := HP a ltac:(lia)).
    set (X := nth a idx 0) in *. set (Y := nth a idx' 0) in *. set (n := nth a lay 0) in *. set (s := snd (nth a x (false, 0))) in *. destruct (per a); [|lia].
    clearbody X Y n s. clear - EA LA LB LP. assert (Z : forall X Y, X < n -> Y < n -> X <= Y -> (X + s) mod n = (Y + s) mod n -> X = Y); [|destruct (Nat.le_ge_cases X Y); [apply Z; auto|symmetry; apply Z; auto]].
    clear X Y EA LA LB. intros X Y LA LB LE EA. assert (E1 := Nat.div_mod (X + s) n ltac:(lia)). assert (E2 := Nat.div_mod (Y + s) n ltac:(lia)). rewrite EA in E1. set (r := (Y + s) mod n) in *. set (a := (X + s) / n) in *. set (b := (Y + s) / n) in *. clearbody a b r. assert (a = b \/ a < b \/ b < a) by lia. destruct H as [->|[H|H]]; [lia| |]; nia.
  Qed.
  Lemma box_most l t n (S : list nat) : NoDup S -> length S <= n -> (forall e i, entry gm e i t -> In i S) -> NoDup l -> (forall e i, In (e, i) l -> entry gm e i t) -> length l <= n.
  Proof.
    intros NS LS HS ND HI. apply Nat.le_trans with (length S); [|exact LS]. rewrite <- (map_length snd l). apply NoDup_incl_length.
    - apply NoDup_map_inj; [|exact ND]. intros [e i] [f j] A B Q. cbn [snd] in Q. subst j. f_equal. apply (same_place e f i t); apply HI; assumption.
    - intros i Hi. apply in_map_iff in Hi. destruct Hi as ([e j] & <- & Hi). cbn [snd]. apply (HS e). apply HI. exact Hi.
  Qed.
End Box.
Theorem box_nodes lay per num gm N : length lay = 3 -> (forall a, a < 3 -> 1 <= nth a lay 0) -> total [1; 1; 1] nodes3 N gm -> conforming [1; 1; 1] nodes3 N gm (same_box lay [1; 1; 1] per num) -> forall t, at_most_places gm 8 t.
Proof.
  intros H3 HP HT HC t l ND HI. apply (box_most F0 lay per num gm N H3 HP HT HC l t 8 (seq 0 8)); auto; [apply seq_NoDup|]. intros e i X. destruct (box_entry F0 lay gm N H3 HT e i t X) as (x & X1 & _). apply in_seq. split; [lia|]. change (i < length (cells [1; 1; 1] (types F0 3))). apply nth_error_Some. congruence.
Qed.
Theorem box_edges lay per num gm N : length lay = 3 -> (forall a, a < 3 -> 1 <= nth a lay 0) -> total [1; 1; 1] edges3 N gm -> conforming [1; 1; 1] edges3 N gm (same_box lay [1; 1; 1] per num) -> forall t, at_most_places gm 4 t.
Proof.
  intros H3 HP HT HC t l ND HI. destruct l as [|[e0 i0] l']; [cbn; lia|]. assert (X0 := HI e0 i0 ltac:(now left)). destruct (box_entry F1 lay gm N H3 HT e0 i0 t X0) as (x0 & A1 & A2 & A3).
  apply (box_most F1 lay per num gm N H3 HP HT HC _ t 4 (seq (4 * (i0 / 4)) 4)); auto; [apply seq_NoDup|]. intros e i X. destruct (box_entry F1 lay gm N H3 HT e i t X) as (x & B1 & B2 & B3).
  destruct (proj1 (HC _ _ t t A2 B2 A3 B3) eq_refl) as (idx & idx' & I1 & I2 & I3 & I4 & EB). cbn [fst snd] in *. change (types F1 3) with edges3 in *.
  assert (EF := f_equal (map fst) EB). unfold box_cell in EF. rewrite !map_map in EF. cbn [fst length] in EF.
  assert (TY : forall y i, nth_error (cells [1; 1; 1] edges3) i = Some y -> map (fun a => fst (nth a y (false, 0))) (seq 0 3) = nth (i / 4) edges3 [] /\ i / 4 < 3).
  { intros y j H. apply edge_place_type in H as H'. destruct H' as [L <-]. split; [|apply Nat.div_lt_upper_bound; lia]. assert (LY : length y = 3). { apply nth_error_In in H. revert H. vm_compute. intros H. repeat (destruct H as [<-|H]; [reflexivity|]). destruct H. } destruct y as [|a [|b [|c [|]]]]; try discriminate. reflexivity. }
  destruct (TY _ _ A1) as [T1 L1]. destruct (TY _ _ B1) as [T2 L2]. rewrite T1, T2 in EF. apply edge_type_inj in EF; auto. apply in_seq. rewrite EF. assert (DM := Nat.div_mod i 4 ltac:(lia)). assert (MB := Nat.mod_upper_bound i 4 ltac:(lia)). lia.
Qed.

Section OneRegion.
  Variables (corner : nat -> nat -> nat) (bnames : list nat) (bsides : list (nat * (nat * nat))) (m : rmap) (g : nat -> list nat -> nat) (lay : list nat) (sc : nat -> scheme) (bps : list (nat * nat)) (pairs : list ((nat * (nat * bool)) * (nat * (nat * bool)))).
  Hypothesis HB : forall b, In b bnames -> 1 <= b.
  Hypothesis HS : forall x, In x bsides -> In (fst x) bnames /\ snd (snd x) < 6.
  Hypothesis HM : region_map corner 1 bnames bsides = Some m.
  Hypothesis H3 : length lay = 3.
  Hypothesis HP : Forall (fun n => 1 <= n) lay.
  Hypothesis HL : lens_ok (prodl lay) (sc 0).
  Hypothesis HBP : boundary_pairs bsides bps = Some pairs.
  Let num r := option_map fst (region_numbering g [lay] sc r).
  Let rm r i := name_of (m r i).
  Variables (SIZE : nat) (rs : list (list nat)) (ms : list emap).
  Hypothesis PA : partition SIZE (prodl lay) rs.
  Hypothesis HC : Forall2 (fun els mm => core_map num [lay] rm bnames pairs els = Some mm) rs ms.
  Variable per : nat -> bool.
  Hypothesis HPer : forall a, a < 3 -> (per a = true <-> periodic_axis pairs a).
  Hypothesis H2 : forall a, a < 3 -> periodic_axis pairs a -> 2 <= nth a lay 0.
  Lemma one_keys : map fst (concat ms) = seq 0 (prodl lay) /\ forall e row, In (e, row) (concat ms) -> length row = 6.
  Proof. destruct (one_box corner bnames bsides m g lay sc bps pairs HB HS HM H3 HP HL HBP SIZE rs ms PA HC per HPer) as (A & para & _ & _ & _ & K & L & _). auto. Qed.
  Theorem one_locations : exists gn Gn ge Ge rn re, node_elements ms = Some (gn, Gn) /\ edge_elements ms = Some (ge, Ge) /\
    locations 8 node_sides ms gn = Some rn /\ locations 4 edge_sides ms ge = Some re /\
    Forall2 (fun g es => NoDup (map fst es) /\ (forall t, In t (map fst es) <-> exists e i, entry g e i t) /\ forall t r, In (t, r) es -> right_record nodes3 (concat ms) (concat gn) t r) gn rn /\
    Forall2 (fun g es => NoDup (map fst es) /\ (forall t, In t (map fst es) <-> exists e i, entry g e i t) /\ forall t r, In (t, r) es -> right_record edges3 (concat ms) (concat ge) t r) ge re.
  Proof.
    destruct (one_region_elements corner bnames bsides m g lay sc bps pairs HB HS HM H3 HP HL HBP SIZE rs ms PA HC per HPer H2) as (A & para & gn & ge & EA & EN & TN & CN & EE & TE & CE).
    destruct one_keys as [KK L6]. assert (LP : forall a, a < 3 -> 1 <= nth a lay 0) by (intros a Ha; apply (proj1 (Forall_forall _ _) HP); apply nth_In; lia).
    destruct (node_locations ms _ KK L6 gn _ EN) as (rn & LN & FN). destruct (edge_locations ms _ KK L6 ge _ EE) as (re & LE & FE). exists gn. eexists. exists ge. eexists. exists rn, re. refine (conj EN (conj EE (conj LN (conj LE (conj _ _))))).
    - assert (MX := box_nodes lay per (at_ A) (concat gn) _ H3 LP TN CN). clear - FN MX. revert FN MX. generalize (concat gn). intros gm FN MX. induction FN as [|x es l k (F1 & F2 & F3) _ IH]; constructor; [|exact IH]. refine (conj F1 (conj F2 _)). intros t r Hr. apply (F3 t r Hr). apply MX.
    - assert (MX := box_edges lay per (at_ A) (concat ge) _ H3 LP TE CE). clear - FE MX. revert FE MX. generalize (concat ge). intros gm FE MX. induction FE as [|x es l k (F1 & F2 & F3) _ IH]; constructor; [|exact IH]. refine (conj F1 (conj F2 _)). intros t r Hr. apply (F3 t r Hr). apply MX.
  Qed.
  Theorem one_edge_dofs D : exists A para outs n, region_numbering g [lay] sc 0 = Some (A, para) /\ edge_numbering D ms = Some outs /\ map (map fst) (map fst outs) = rs /\
    (let gm := concat (map fst outs) in
     (forall e v, In (e, v) gm -> length v = 4 * (D 0 + D 1 + D 2)) /\
     (forall e j x i d f k y l d', edge_dof D gm e j i d -> edge_dof D gm f k l d' -> nth_error (cells [1; 1; 1] edges3) j = Some x -> nth_error (cells [1; 1; 1] edges3) k = Some y ->
        d = d' <-> i = l /\ same_box lay [1; 1; 1] per (at_ A) (e, x) (f, y)) /\
     (forall d, d < n <-> exists e j i, edge_dof D gm e j i d)).
  Proof.
    destruct (one_region_elements corner bnames bsides m g lay sc bps pairs HB HS HM H3 HP HL HBP SIZE rs ms PA HC per HPer H2) as (A & para & gn & ge & EA & EN & TN & CN & EE & TE & CE).
    destruct one_keys as [KK L6]. destruct (edge_numbering_ok ms _ KK L6 ge _ D EE) as (outs & n & E & K & (X1 & X2 & X3) & _). exists A, para, outs, n.
    refine (conj EA (conj E (conj _ (conj X1 (conj _ X3))))).
    - rewrite K. clear - HC. induction HC as [|els mm rs ms Q F IH]; cbn; [reflexivity|]. f_equal; [|exact (IH F)]. rewrite core_map_full in Q. destruct (element_map_rows _ [lay] _ bnames pairs els mm Q) as (ps' & _ & R). clear - R. induction R as [|e er els m9 (E1 & _) R IH]; cbn; congruence.
    - intros e j x i d f k y l d' A1 A2 B1 B2. cbv zeta in *. rewrite (X2 e j i d f k l d' A1 A2).
      assert (EX : forall e j i d, edge_dof D (concat (map fst outs)) e j i d -> exists t, entry (concat ge) e j t). { clear - X2. intros e j i d H. destruct (proj1 (X2 e j i d e j i d H H) eq_refl) as (_ & t & Ht & _). eauto. }
      destruct (EX _ _ _ _ A1) as [t Ht]. destruct (EX _ _ _ _ A2) as [u Hu].
      destruct (box_entry F1 lay (concat ge) _ H3 TE _ _ _ Ht) as (x' & P1 & P2 & P3). change (types F1 3) with edges3 in *. assert (x' = x) by congruence. subst x'.
      destruct (box_entry F1 lay (concat ge) _ H3 TE _ _ _ Hu) as (y' & Q1 & Q2 & Q3). change (types F1 3) with edges3 in *. assert (y' = y) by congruence. subst y'.
      rewrite <- (CE _ _ t u P2 Q2 P3 Q3). assert (T : forall e j t u, entry (concat ge) e j t -> entry (concat ge) e j u -> t = u).
      { intros e0 j0 t0 u0 (v & Hv & E1) (v' & Hv' & E2). assert (ND : NoDup (map fst (concat ge))) by (rewrite (proj1 TE); apply seq_NoDup). apply (dget_In _ Nat.eqb_eq _ _ _ ND) in Hv, Hv'. congruence. }
      split; intros (-> & Q); (split; [reflexivity|]).
      + destruct Q as (z & Z1 & Z2). rewrite (T _ _ _ _ Ht Z1), (T _ _ _ _ Hu Z2). reflexivity.
      + subst u. exists t. auto.
  Qed.
End OneRegion.
