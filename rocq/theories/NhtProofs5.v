(** Proofs about NhtModel: facing sides, and the numbering of a non-hybrid trace form as a whole. *)
From Coq Require Import List Arith ZArith Bool Lia Permutation.
From Verif Require Import Prelude PreludeProofs RingSum AssembleModel AssembleSpec AssembleProofs SpaceModel SpaceSpec SpaceProofs SpaceProofs2 SpaceProofs4 SpaceProofs7 MeshMapModel MeshMapProofs2 TraceModel TraceSpec TraceProofs NumModel NumSpec NumProofs NumProofs4 NumProofs5 NhtModel NhtSpec NhtProofs NhtProofs2 NhtProofs3 NhtProofs4.
Import ListNotations.

(** * index lists of facing sides *)
Definition put_at {A} (l : list A) (ax : nat) (x : A) : list A := firstn ax l ++ x :: skipn (S ax) l.
Lemma F2_map {A B C D} (R : C -> D -> Prop) (f : A -> C) (g : B -> D) l m : Forall2 (fun a b => R (f a) (g b)) l m -> Forall2 R (map f l) (map g m).
Proof. induction 1; constructor; assumption. Qed.
Lemma F2_flat {A B C D} (R : C -> D -> Prop) (f : A -> list C) (g : B -> list D) l m : Forall2 (fun a b => Forall2 R (f a) (g b)) l m -> Forall2 R (flat_map f l) (flat_map g m).
Proof. induction 1; [constructor|]. cbn [flat_map]. apply Forall2_app; assumption. Qed.
Lemma F2_same {A} (R : A -> A -> Prop) l : (forall a, In a l -> R a a) -> Forall2 R l l.
Proof. induction l; intros H; constructor; [apply H; now left|apply IHl; intros; apply H; now right]. Qed.
Lemma F2_impl {A B} (R Q : A -> B -> Prop) l m : (forall a b, R a b -> Q a b) -> Forall2 R l m -> Forall2 Q l m.
Proof. intros H. induction 1; constructor; auto. Qed.
Definition differ (ax c c' : nat) (i i' : list nat) : Prop := nth_error i ax = Some c /\ nth_error i' ax = Some c' /\ forall a, a <> ax -> nth_error i a = nth_error i' a.
Lemma prod_pair c c' ls : forall ax, ax < length ls -> Forall2 (differ ax c c') (prod_idx (put_at ls ax [c])) (prod_idx (put_at ls ax [c'])).
Proof.
  unfold put_at. induction ls as [|l ls IH]; intros ax H; [cbn in H; lia|]. destruct ax as [|ax].
  - cbn [firstn skipn app prod_idx]. apply F2_flat. apply F2_same. intros r _. cbn [map]. constructor; [|constructor]. split; [reflexivity|]. split; [reflexivity|]. intros [|a] Ha; [contradiction|reflexivity].
  - cbn [firstn app prod_idx]. change (skipn (S (S ax)) (l :: ls)) with (skipn (S ax) ls). apply F2_flat. cbn in H. specialize (IH ax ltac:(lia)).
    induction IH as [|r r' m m' (D1 & D2 & D3) _ IH']; constructor; [|exact IH']. apply F2_map. apply F2_same. intros z _. split; [exact D1|]. split; [exact D2|]. intros [|a] Ha; [reflexivity|]. cbn. apply D3. lia.
Qed.
Lemma side_cells_t p s t : Forall (fun n => 1 <= n) p -> length t = length p -> touches s t = true ->
  filter (on_side p s) (cells_t p t) = map (combine t) (prod_idx (put_at (map (seq 0) (sizes p t)) (fst s) [if snd s then nth (fst s) p 0 else 0])).
Proof.
  intros F Lt Ht. destruct (idxss_grid (side_sel (length p) s) (sizes p t)) as (ls & E & El); [rewrite side_sel_length, length_sizes; lia|apply sizes_pos; assumption|].
  unfold cells_t. rewrite SpaceProofs4.filter_map. f_equal. rewrite (filter_ext_in _ (selb (side_sel (length p) s) (sizes p t))) by (intros i Hi; apply side_sel_selb; [assumption..|apply in_grid; exact Hi]).
  rewrite <- El. f_equal. assert (Ha : nth_error t (fst s) = Some false) by (unfold touches in Ht; destruct (nth_error t (fst s)) as [[|]|]; try discriminate; reflexivity). clear El Ht.
  unfold side_sel in E. destruct s as [ax up]. cbn [fst snd] in *. unfold put_at.
  assert (G : forall k ls, idxss (map (fun x => if x =? k + ax then (if up then Lst else Fst) else All) (seq k (length p))) (sizes p t) = Some ls ->
    ls = firstn ax (map (seq 0) (sizes p t)) ++ [if up then nth ax p 0 else 0] :: skipn (S ax) (map (seq 0) (sizes p t))); [|exact (G 0 ls E)].
  clear E ls. assert (Al : forall m k q u ls, length u = length q -> m < k -> idxss (map (fun x => if x =? m then (if up then Lst else Fst) else All) (seq k (length q))) (sizes q u) = Some ls -> ls = map (seq 0) (sizes q u)).
  { intros m k q. revert k. induction q as [|n q IH]; intros k [|b u] ls Lu Hm; try discriminate; [intros [= <-]; reflexivity|]. cbn [length seq map sizes idxss]. replace (k =? m) with false by (symmetry; apply Nat.eqb_neq; lia). cbn [idxs].
    destruct (idxss _ _) as [r|] eqn:Er; [|discriminate]. intros [= <-]. f_equal. apply (IH (S k)); [cbn in Lu; lia|lia|exact Er]. }
  revert p F t Lt Ha. induction ax as [|ax IH]; intros [|n p] F [|b t] Lt Ha k ls E; try discriminate.
  - cbn in Ha. injection Ha as ->. cbn [length seq map sizes idxss] in E. rewrite Nat.add_0_r, Nat.eqb_refl in E. destruct (idxss _ (sizes p t)) as [r|] eqn:Er; [|destruct (idxs _ _); discriminate].
    assert (X : r = map (seq 0) (sizes p t)) by (apply (Al k (S k) p t r); [cbn in Lt; lia|lia|exact Er]). subst r. cbn [firstn skipn app map sizes nth]. unfold size in E.
    destruct up; cbn [idxs] in E; destruct (Nat.eqb_spec (n + 1) 0); try lia; injection E as <-; do 2 f_equal; try lia.
  - cbn [length seq map sizes idxss] in E. replace (k =? k + S ax) with false in E by (symmetry; apply Nat.eqb_neq; lia). cbn [idxs] in E. destruct (idxss _ (sizes p t)) as [r|] eqn:Er; [|discriminate].
    injection E as <-. cbn [map sizes firstn app nth]. change (skipn (S (S ax)) (?h :: ?l)) with (skipn (S ax) l). f_equal. inversion F; subst. apply (IH p ltac:(assumption) t ltac:(cbn in Lt; lia) Ha (S k)). rewrite Nat.add_succ_comm. exact Er.
Qed.
(** the cells of a side and of the facing side, in their order *)
Lemma facing_cells p ts ax : SpaceProofs.types_ok p ts -> Forall (fun n => 1 <= n) p -> ax < length p ->
  Forall2 (touching p ax true) (filter (on_side p (ax, true)) (cells p ts)) (filter (on_side p (ax, false)) (cells p ts)).
Proof.
  intros (_ & HL) F Hax. rewrite !filter_side_cells by exact HL. change (touches (ax, false)) with (touches (ax, true)). apply F2_flat. apply F2_same. intros t Ht. apply filter_In in Ht as [Ht Tt].
  assert (Lt := HL t Ht). rewrite !side_cells_t by assumption. apply F2_map. cbn [fst snd]. assert (X := prod_pair (nth ax p 0) 0 (map (seq 0) (sizes p t)) ax). rewrite map_length, length_sizes in X by assumption. specialize (X Hax).
  assert (Hf : nth_error t ax = Some false) by (unfold touches in Tt; cbn [fst] in Tt; destruct (nth_error t ax) as [[|]|]; try discriminate; reflexivity).
  eapply F2_impl; [|exact X]. intros i i' (D1 & D2 & D3). split; [rewrite nth_error_combine, Hf, D1; reflexivity|]. split; [rewrite nth_error_combine, Hf, D2; reflexivity|]. intros a Ha. rewrite !nth_error_combine, D3 by exact Ha. reflexivity.
Qed.
Lemma sides_same_length p ts s r : SpaceProofs.types_ok p ts -> Forall (fun n => 1 <= n) p -> fst s = fst r -> fst s < length p ->
  length (filter (on_side p s) (cells p ts)) = length (filter (on_side p r) (cells p ts)).
Proof.
  intros T F E H. destruct s as [ax u], r as [ax' u']. cbn [fst] in *. subst ax'. assert (X := facing_cells p ts ax T F H). apply F2_length in X. destruct u, u'; congruence.
Qed.

Section Whole.
  Variables (px py pz : nat) (k : nform).
  Let p := [px; py; pz].
  Hypothesis Fp : Forall (fun n => 1 <= n) p.
  Hypothesis Low : k = F2 -> p <> [1; 1; 1].
  Let ts := types k 3.
  Let cs := cells p ts.
  Variables (N K : nat) (gms tms : list (list (nat * list nat))).
  Let G := concat gms.
  Hypothesis HN : 0 < N.
  Hypothesis HT : total p ts N G.
  Hypothesis HC : consecutive G K.
  Hypothesis HP : prefixed G.
  Hypothesis HD : forall e v, In (e, v) G -> NoDup v.
  Hypothesis HS : forall a b n, numbered p ts G a n -> numbered p ts G b n -> on_surface p (snd a) = false -> a = b.
  Hypothesis Htm : Forall2 (fun gm tm => map fst tm = map fst gm /\ forall e row, In (e, row) tm -> length row = 6) gms tms.
  Hypothesis HJ : joined p ts G (concat tms).
  Let Tk : SpaceProofs.types_ok p ts := T_ok px py pz k.
  Theorem nonhybrid_ok : exists L outs n, lg_of k p = Some L /\ nonhybrid k p gms tms = Some outs /\
    map (fun o => map fst (fst (fst o))) outs = map (map fst) gms /\
    restriction p ts N L G (concat (map (fun o => fst (fst o)) outs)) n /\
    K = n + N * length (filter (fun c => negb (on_surface p c)) cs) /\
    Forall2 (fun tm o => on_traces p ts L (fst (fst o)) tm (snd (fst o)) /\ dofs_here p ts L (fst (fst o)) (snd o)) tms outs.
  Proof.
    destruct (lg_ok px py pz Fp k) as (L & Nt & EL0 & num & EL & Inum & Rnum). destruct (int_ok px py pz Fp k Low) as (int & EI & Dint & Hint). fold p ts in EL, Inum, Rnum, Hint. fold cs in EL, Inum, Rnum, Hint.
    assert (EL' : True -> L = map (fun s => map (fun c => Z.of_nat (num c)) (filter (on_side p s) cs)) sides3) by auto. clear EL.
    set (surf := surface_of (length cs) int). set (n := length (nodup Nat.eq_dec (S_ surf (map snd G)))).
    assert (EK : K = n + N * length int) by exact (G_count p ts Tk int Dint Hint N K G HT HC HD HS).
    assert (Lint : length int = length (filter (fun c => negb (on_surface p c)) cs)).
    { rewrite <- (map_length (SpaceProofs.pos cs)). apply Permutation_length. apply NoDup_Permutation; [exact Dint| |].
      - apply SpaceProofs.NoDup_map_inj; [|apply NoDup_filter, NoDup_cells; exact Tk]. intros c d Hc Hd. apply filter_In in Hc, Hd. apply pos_inj; tauto.
      - intros i. rewrite Hint, in_map_iff. split.
        + intros (c & Hc & O). exists c. split; [apply pos_eq; [apply NoDup_cells; exact Tk|exact Hc]|]. apply filter_In. split; [eapply nth_error_In; exact Hc|rewrite O; reflexivity].
        + intros (c & <- & Hc). apply filter_In in Hc as [Hc O]. exists c. split; [apply pos_nth; exact Hc|]. destruct (on_surface p c); [discriminate|reflexivity]. }
    assert (HV : forall d, In d (S_ surf (map snd G)) <-> exists e v x, In (e, v) G /\ In x cs /\ on_surface p x = true /\ d = nth (SpaceProofs.pos cs x) v 0).
    { intros d. assert (Q := in_S p ts int G d). change (surface_of (length (cells p ts)) int) with surf in Q. rewrite Q. clear Q. split.
      - intros (e & v & Hv & H). apply (in_surf p ts Tk int Hint G e v d) in H; [|exact Hv]. destruct H as (x & H). eauto 8.
      - intros (e & v & x & Hv & H). exists e, v. split; [exact Hv|]. apply (in_surf p ts Tk int Hint G e v d Hv). eauto. }
    assert (GN : exists v0, In (0, v0) G).
    { assert (X : In 0 (map fst G)) by (rewrite (proj1 HT); apply in_seq; lia). apply in_map_iff in X as ([e v] & E & H). cbn in E. subst e. eauto. }
    destruct GN as (v0 & Hv0). destruct (side_cell px py pz Fp k (0, false)) as (x0 & Hx0 & O0); [now left|]. fold p ts in Hx0, O0. fold cs in Hx0. apply (side_surface p) in O0; [|now left].
    assert (Hn : 0 < n). { unfold n. assert (X : In (nth (SpaceProofs.pos cs x0) v0 0) (nodup Nat.eq_dec (S_ surf (map snd G)))) by (apply nodup_In, HV; eauto 8). destruct (nodup _ _); [destruct X|cbn; lia]. }
    destruct (renumbering_ok int surf K gms N n) as (Rs & rho & ER & FR & Irho & Rrho); [exact (G_ordered p ts Tk int Hint N K G HT HC HP HD HS)|exact Hn|reflexivity|exact EK| |].
    { intros E. unfold G in Hv0. rewrite E in Hv0. destruct Hv0. }
    fold G in Irho, Rrho.
    (* the cores *)
    pose (dof := dof px py pz k rho). pose (good := NhtProofs4.good px py pz k Nt num rho). pose (row := NhtProofs4.row px py pz k rho).
    assert (FC : exists outs, SpaceModel.all_some (map (restrict_core k p L) (combine (combine Rs gms) tms)) = Some outs /\
      Forall2 (fun gt o => Forall2 (fun ev eg => fst eg = fst ev /\ good (snd ev) (snd eg)) (fst gt) (fst (fst o)) /\
        (forall z, In z (snd o) <-> exists e v x, In (e, v) (fst gt) /\ In x cs /\ on_surface p x = true /\ z = Z.of_nat (dof v x)) /\
        NoDup (map fst (snd (fst o))) /\ (forall t, In t (map fst (snd (fst o))) <-> exists e j, entry (snd gt) e j t) /\
        (forall t r, In (t, r) (snd (fst o)) -> exists e v j s, In (e, v) (fst gt) /\ entry (snd gt) e j t /\ nth_error sides3 j = Some s /\ r = row v s)) (combine gms tms) outs).
    { assert (Sub : forall gm, In gm gms -> (forall ev, In ev gm -> In ev G) /\ NoDup (map fst gm)).
      { intros gm Hg. split; [intros ev H; unfold G; apply in_concat; eauto|]. assert (X : NoDup (map fst G)) by (rewrite (proj1 HT); apply seq_NoDup). unfold G in X. apply in_split in Hg as (g1 & g2 & ->).
        rewrite concat_app in X. cbn [concat] in X. rewrite !map_app in X. apply SpaceProofs7.NoDup_app_inv in X as (_ & X & _). apply SpaceProofs7.NoDup_app_inv in X as (X & _). exact X. }
      assert (X : forall gms' Rs' tms', (forall gm, In gm gms' -> In gm gms) -> Forall2 (fun gm Rc => length Rc = K /\ forall d, In d (S_ surf (map snd gm)) -> nth_error Rc d = Some (Z.of_nat (rho d))) gms' Rs' ->
        Forall2 (fun gm tm => map fst tm = map fst gm /\ forall e row, In (e, row) tm -> length row = 6) gms' tms' ->
        exists outs, Forall2 (fun a b => restrict_core k p L a = Some b) (combine (combine Rs' gms') tms') outs /\
      Forall2 (fun gt o => Forall2 (fun ev eg => fst eg = fst ev /\ good (snd ev) (snd eg)) (fst gt) (fst (fst o)) /\
        (forall z, In z (snd o) <-> exists e v x, In (e, v) (fst gt) /\ In x cs /\ on_surface p x = true /\ z = Z.of_nat (dof v x)) /\
        NoDup (map fst (snd (fst o))) /\ (forall t, In t (map fst (snd (fst o))) <-> exists e j, entry (snd gt) e j t) /\
        (forall t r, In (t, r) (snd (fst o)) -> exists e v j s, In (e, v) (fst gt) /\ entry (snd gt) e j t /\ nth_error sides3 j = Some s /\ r = row v s)) (combine gms' tms') outs).
      { induction gms' as [|gm gms' IH]; intros Rs' tms' Hs F1 F2; inversion F1 as [|? Rc ? Rs1 [R1 R2] F1']; subst; inversion F2 as [|? tm ? tms1 [T1 T2] F2']; subst; [exists []; split; constructor|].
        destruct (IH Rs1 tms1 (fun g H => Hs g (or_intror H)) F1' F2') as (outs & A & B). destruct (Sub gm (Hs gm (or_introl eq_refl))) as [S1 S2].
        destruct (core_ok px py pz k Fp L Nt num (EL' Logic.I) Inum Rnum int Hint (length Rc) gm Rc rho tm) as (gs & tew & all & E & C1 & C2 & C3 & C4 & C5).
        - intros e v Hv. split; [exact (proj2 HT e v (S1 _ Hv))|]. intros d Hd. rewrite R1. apply HC. eauto.
        - reflexivity.
        - exact R2.
        - exact T1.
        - exact S2.
        - exact T2.
        - exists ((gs, tew, all) :: outs). split; (constructor; [|assumption]); [exact E|]. cbn [fst snd]. repeat (split; [assumption|]). exact C5. }
      destruct (X gms Rs tms (fun g H => H) FR Htm) as (outs & A & B). exists outs. split; [apply all_some_intro; exact A|exact B]. }
    destruct FC as (outs & EO & FO).
    (* all numbers *)
    assert (HA : forall z, In z (concat (map snd outs)) <-> exists e v x, In (e, v) G /\ In x cs /\ on_surface p x = true /\ z = Z.of_nat (dof v x)).
    { intros z. assert (LT : length gms = length tms) by (apply F2_length in Htm; exact Htm). clear - FO LT. unfold G. revert tms LT outs FO. induction gms as [|gm gms' IH]; intros [|tm tms'] LT outs FO; try discriminate; cbn [combine] in FO; inversion FO as [|? o ? outs' (_ & H & _) FO']; subst; cbn [map concat].
      - split; [intros []|intros (e & v & x & [] & _)].
      - rewrite in_app_iff, H, (IH tms' ltac:(cbn in LT; lia) outs' FO'). cbn [fst]. split.
        + intros [(e & v & x & A & B)|(e & v & x & A & B)]; exists e, v, x; (split; [apply in_app_iff; auto|exact B]).
        + intros (e & v & x & A & B). apply in_app_iff in A as [A|A]; [left|right]; exists e, v, x; auto. }
    assert (HA' : forall z, In z (concat (map snd outs)) <-> (0 <= z < Z.of_nat n)%Z).
    { intros z. rewrite HA. split.
      - intros (e & v & x & Hv & Hx & O & ->). assert (X : dof v x < n); [|lia]. apply Rrho. exists (nth (SpaceProofs.pos cs x) v 0). split; [apply HV; eauto 8|reflexivity].
      - intros Hz. assert (X : Z.to_nat z < n) by lia. apply Rrho in X as (d & Hd & E). apply HV in Hd as (e & v & x & Hv & Hx & O & ->). exists e, v, x. split; [exact Hv|]. split; [exact Hx|]. split; [exact O|]. unfold dof, NhtProofs4.dof. fold p ts cs. change (types k 3) with ts. fold cs. rewrite E. lia. }
    set (GM := concat (map (fun o => fst (fst o)) outs)).
    assert (FG : Forall2 (fun ev eg => fst eg = fst ev /\ good (snd ev) (snd eg)) G GM).
    { assert (LT : length gms = length tms) by (apply F2_length in Htm; exact Htm). unfold G, GM. clear - FO LT. revert tms LT outs FO. induction gms as [|gm gms' IH]; intros [|tm tms'] LT outs FO; try discriminate; cbn [combine] in FO; inversion FO as [|? o ? outs' (H & _) FO']; subst; cbn [map concat]; [constructor|].
      apply Forall2_app; [exact H|]. apply (IH tms'); [cbn in LT; lia|exact FO']. }
    assert (HG : forall z, In z (flat_map snd GM) <-> (0 <= z < Z.of_nat n)%Z).
    { intros z. rewrite <- HA', HA. rewrite in_flat_map. split.
      - intros ([e g] & Hg & H). cbn [snd] in H. apply In_nth_error in Hg as (q & Hg). assert (X : exists ev, nth_error G q = Some ev /\ fst ev = e /\ good (snd ev) g).
        { clear - FG Hg. revert q Hg. induction FG as [|ev eg l m [A B] F IH]; intros [|q] Hg; try discriminate; cbn [nth_error] in *; [injection Hg as ->; cbn [fst snd] in *; exists ev; auto|apply IH; exact Hg]. }
        destruct X as ([e' v] & Hv & _ & Lg & V). cbn [fst snd] in *. apply nth_error_In in Hv. apply In_nth_error in H as (i & Hi). assert (Li : i < Nt) by (rewrite <- Lg; apply nth_error_Some; congruence).
        apply Rnum in Li as (c & Hc & O & <-). exists e', v, c. split; [exact Hv|]. split; [exact Hc|]. split; [exact O|]. rewrite (V c Hc O) in Hi. injection Hi as <-. reflexivity.
      - intros (e & v & x & Hv & Hx & O & ->). assert (X : exists g, In (e, g) GM /\ good v g).
        { clear - FG Hv. induction FG as [|[a b] [c d] l m [A B] F IH]; [destruct Hv|]. cbn [fst snd] in *. subst c. destruct Hv as [[= -> ->]|Hv]; [exists d; split; [now left|exact B]|]. destruct (IH Hv) as (g & Hg & B'). exists g. split; [now right|exact B']. }
        destruct X as (g & Hg & Lg & V). exists (e, g). split; [exact Hg|]. cbn [snd]. eapply nth_error_In. apply V; assumption. }
    assert (Z0 : forall l, (forall z, In z l <-> (0 <= z < Z.of_nat n)%Z) -> zmin l = Some 0%Z /\ zmax l = Some (Z.of_nat n - 1)%Z).
    { intros l H. split; [apply zmin_spec|apply zmax_spec]; (split; [apply H; lia|]); intros z Hz; apply H in Hz; lia. }
    destruct (Z0 _ HA') as [M1 M2]. destruct (Z0 _ HG) as [_ M3].
    assert (LN : length (nodup Z.eq_dec (concat (map snd outs))) = n).
    { rewrite <- (seq_length n 0), <- (map_length Z.of_nat (seq 0 n)). apply Permutation_length. apply NoDup_Permutation; [apply NoDup_nodup|apply SpaceProofs.NoDup_map_inj; [intros; lia|apply seq_NoDup]|].
      intros z. rewrite nodup_In, HA', in_map_iff. split; [intros Hz; exists (Z.to_nat z); split; [lia|apply in_seq; lia]|intros (i & <- & Hi); apply in_seq in Hi; lia]. }
    exists L, (map (fun o => (fst o, length (nodup Z.eq_dec (snd o)))) outs), n. split; [exact EL0|]. split.
    { unfold nonhybrid. change [px; py; pz] with p in EI, EL0. rewrite EI, EL0. rewrite (global_num_ok gms K HC). assert (NB : nb (shapes_of k p) = length cs) by exact (nb_cells px py pz k). rewrite NB. fold surf.
      assert (LG : length (concat gms) = N) by (rewrite <- (map_length fst); change (concat gms) with G; rewrite (proj1 HT); apply seq_length). rewrite LG, ER, EO. fold GM. rewrite M1, M2, M3, LN.
      replace ((0 =? 0)%Z && (Z.of_nat n - 1 + 1 =? Z.of_nat K - Z.of_nat N * Z.of_nat (length int))%Z && (Z.of_nat n - 1 =? Z.of_nat n - 1)%Z && (Z.of_nat n =? Z.of_nat n - 1 + 1)%Z) with true; [reflexivity|].
      symmetry. rewrite !andb_true_iff, !Z.eqb_eq. rewrite EK. repeat split; lia. }
    assert (DI : forall gm gs e x d, Forall2 (fun ev eg => fst eg = fst ev /\ good (snd ev) (snd eg)) gm gs -> (trace_dof p ts L gs e x d <-> exists v, In (e, v) gm /\ In x cs /\ on_surface p x = true /\ d = dof v x)).
    { intros gm gs e x d F. exact (dof_iff px py pz k L Nt num (EL' Logic.I) 0 gm [] rho eq_refl gs e x d F). }
    assert (KG : forall (gm : list (nat * list nat)) (gs : list (nat * list Z)), Forall2 (fun ev eg => fst eg = fst ev /\ good (snd ev) (snd eg)) gm gs -> map fst gs = map fst gm).
    { intros gm gs F. induction F as [|ev eg l m [A _] _ IH]; [reflexivity|]. cbn [map]. congruence. }
    rewrite map_map. cbn [fst]. split; [|split; [|split]].
    - assert (LT : length gms = length tms) by (apply F2_length in Htm; exact Htm). clear - FO LT KG. revert tms LT outs FO. induction gms as [|gm gms' IH]; intros [|tm tms'] LT outs FO; try discriminate; cbn [combine] in FO; inversion FO as [|? o ? outs' (H & _) FO']; subst; cbn [map]; [reflexivity|].
      f_equal; [apply KG; exact H|]. apply (IH tms'); [cbn in LT; lia|exact FO'].
    - rewrite map_map. cbn [fst]. fold GM. split; [rewrite (KG _ _ FG); exact (proj1 HT)|]. split.
      { intros e g Hg. apply In_nth_error in Hg as (q & Hg). assert (X : exists ev : nat * list nat, good (snd ev) g).
        { clear - FG Hg. revert q Hg. induction FG as [|ev eg l m [A B] F IH]; intros [|q] Hg; try discriminate; cbn [nth_error] in *; [injection Hg as ->; cbn [fst snd] in *; exists ev; auto|eapply IH; exact Hg]. }
        destruct X as (ev & -> & _). rewrite <- (map_length num). rewrite <- (seq_length Nt 0). apply Permutation_length. apply NoDup_Permutation; [apply seq_NoDup|apply SpaceProofs.NoDup_map_inj; [|apply NoDup_filter, NoDup_cells; exact Tk]|].
        - intros c d Hc Hd. apply filter_In in Hc as [Hc O], Hd as [Hd O']. apply Inum; assumption.
        - intros i. rewrite in_seq, in_map_iff. split; [intros [_ Hi]; apply Rnum in Hi as (c & Hc & O & <-); exists c; split; [reflexivity|apply filter_In; auto]|intros (c & <- & Hc); apply filter_In in Hc as [Hc O]; split; [lia|]; cbn; apply Rnum; eauto]. }
      split; [|split].
      + intros e x He Hx O. assert (X : In e (map fst G)) by (rewrite (proj1 HT); apply in_seq; lia). apply in_map_iff in X as ([e' v] & E & Hv). cbn in E. subst e'. exists (dof v x). apply (DI _ _ _ _ _ FG). eauto.
      + intros e x d f y d' m m' H1 H2 N1 N2. apply (DI _ _ _ _ _ FG) in H1 as (v & Hv & Hx & O & ->), H2 as (w & Hw & Hy & O' & ->).
        assert (Q : forall e v x m, In (e, v) G -> In x cs -> numbered p ts G (e, x) m -> m = nth (SpaceProofs.pos cs x) v 0).
        { clear - HT Tk. intros e v x m Hv Hx (w & i & Hw & Hi & Hm). cbn [fst snd] in *. assert (w = v) by exact (one_vec p ts N G HT e w v Hw Hv). subst w. rewrite <- (pos_eq (cells p ts) x i (NoDup_cells p ts Tk) Hi) in Hm. symmetry. apply nth_error_nth. exact Hm. }
        rewrite (Q e v x m Hv Hx N1), (Q f w y m' Hw Hy N2). split; [|intros E; unfold dof, NhtProofs4.dof; fold p ts; change (types k 3) with ts; fold cs; rewrite E; reflexivity]. apply Irho; apply HV; eauto 8.
      + intros d. split.
        * intros Hd. assert (X : (0 <= Z.of_nat d < Z.of_nat n)%Z) by lia. apply HA', HA in X as (e & v & x & Hv & Hx & O & E). exists e, x. apply (DI _ _ _ _ _ FG). exists v. repeat (split; [assumption|]). lia.
        * intros (e & x & H). apply (DI _ _ _ _ _ FG) in H as (v & Hv & Hx & O & ->). assert (X : In (Z.of_nat (dof v x)) (concat (map snd outs))) by (apply HA; eauto 8). apply HA' in X. lia.
    - rewrite EK, Lint. reflexivity.
    - assert (X : forall gms' tms' outs', (forall gm, In gm gms' -> In gm gms) -> (forall tm, In tm tms' -> In tm tms) -> Forall2 (fun gm tm => map fst tm = map fst gm /\ forall e row, In (e, row) tm -> length row = 6) gms' tms' ->
        Forall2 (fun gt o => Forall2 (fun ev eg => fst eg = fst ev /\ good (snd ev) (snd eg)) (fst gt) (fst (fst o)) /\
        (forall z, In z (snd o) <-> exists e v x, In (e, v) (fst gt) /\ In x cs /\ on_surface p x = true /\ z = Z.of_nat (dof v x)) /\
        NoDup (map fst (snd (fst o))) /\ (forall t, In t (map fst (snd (fst o))) <-> exists e j, entry (snd gt) e j t) /\
        (forall t r, In (t, r) (snd (fst o)) -> exists e v j s, In (e, v) (fst gt) /\ entry (snd gt) e j t /\ nth_error sides3 j = Some s /\ r = row v s)) (combine gms' tms') outs' ->
        Forall2 (fun tm o => on_traces p ts L (fst (fst o)) tm (snd (fst o)) /\ dofs_here p ts L (fst (fst o)) (snd o)) tms' (map (fun o => (fst o, length (nodup Z.eq_dec (snd o)))) outs')); [|apply (X gms tms outs); auto].
      clear EO FO HA HA' GM FG HG M1 M2 M3 LN outs. induction gms' as [|gm gms' IH]; intros tms' outs' Sg St F2 FO; inversion F2 as [|? tm ? tms1 [T1 T2] F2']; subst; cbn [combine] in FO; inversion FO as [|? o ? outs1 (C1 & C2 & C3 & C4 & C5) FO']; subst; cbn [map]; [constructor|].
      constructor; [|apply (IH tms1 outs1); auto; [intros g Hg; apply Sg; now right|intros g Hg; apply St; now right]]. cbn [fst snd] in *.
      assert (Sgm : forall ev, In ev gm -> In ev G) by (intros ev H; unfold G; apply in_concat; exists gm; split; [apply Sg; now left|exact H]).
      assert (Stm : forall e j t, entry tm e j t -> entry (concat tms) e j t) by (intros e j t (r & H & H'); exists r; split; [apply in_concat; exists tm; split; [apply St; now left|exact H]|exact H']).
      assert (D : forall e x d, trace_dof p ts L (fst (fst o)) e x d <-> exists v, In (e, v) gm /\ In x cs /\ on_surface p x = true /\ d = dof v x) by (intros; apply DI; exact C1).
      split.
      + split; [exact C3|]. split; [exact C4|]. intros t v e j s Hv He Hs. apply C5 in Hv as (f & w & i & r & Hw & Hf & Hr & ->).
        destruct (HJ t e j f i s r (Stm _ _ _ He) (Stm _ _ _ Hf) Hs Hr) as [Ax Jn]. assert (Hs' : In s sides3) by (eapply nth_error_In; exact Hs). assert (Hr' : In r sides3) by (eapply nth_error_In; exact Hr).
        assert (Ls : fst s < length p) by (cbn in Hs'; cbn; repeat destruct Hs' as [<-|Hs']; cbn; try lia; destruct Hs').
        assert (LL := sides_same_length p ts s r Tk Fp Ax Ls). fold cs in LL |- *.
        assert (Lrow : length (row w r) = length (filter (on_side p r) cs)) by (unfold row, NhtProofs4.row; rewrite map_length; reflexivity).
        split; [rewrite Lrow, LL; reflexivity|]. intros a x d Hx.
        assert (Hy : exists y, nth_error (filter (on_side p r) cs) a = Some y). { destruct (nth_error (filter (on_side p r) cs) a) as [y|] eqn:Ey; [eauto|]. apply nth_error_None in Ey. assert (a < length (filter (on_side p s) cs)) by (apply nth_error_Some; congruence). lia. }
        destruct Hy as (y & Hy). assert (Hxc := Hx). apply nth_error_In, filter_In in Hxc as [Hxc Ox]. assert (Hyc := Hy). apply nth_error_In, filter_In in Hyc as [Hyc Oy].
        assert (Ke : exists u, In (e, u) gm). { destruct He as (rw & He & _). assert (X : In e (map fst gm)) by (rewrite <- T1; apply (in_map fst) in He; exact He). apply in_map_iff in X as ([e' u] & E & H). cbn in E. subst e'. eauto. }
        destruct Ke as (u & Hu). assert (EQ : nth (SpaceProofs.pos cs x) u 0 = nth (SpaceProofs.pos cs y) w 0).
        { apply (Jn a x y); [exact Hx|exact Hy|apply (at_pos p ts N G HT); [apply Sgm; exact Hu|exact Hxc]|apply (at_pos p ts N G HT); [apply Sgm; exact Hw|exact Hyc]]. }
        assert (V : nth_error (row w r) a = Some (Z.of_nat (dof u x))).
        { unfold row, NhtProofs4.row. rewrite nth_error_map. change (filter (on_side [px; py; pz] r) (cells [px; py; pz] (types k 3))) with (filter (on_side p r) cs). rewrite Hy. cbn [option_map]. unfold dof, NhtProofs4.dof. fold p ts. change (types k 3) with ts. fold cs. rewrite EQ. reflexivity. }
        rewrite V, D. split.
        * intros E. exists u. split; [exact Hu|]. split; [exact Hxc|]. split; [exact (side_surface p s x Hs' Ox)|]. injection E. lia.
        * intros (u' & Hu' & _ & _ & ->). rewrite (one_vec p ts N G HT e u u' (Sgm _ Hu) (Sgm _ Hu')). reflexivity.
      + exists (map Z.to_nat (nodup Z.eq_dec (snd o))). split; [|split; [apply map_length|]].
        * apply SpaceProofs.NoDup_map_inj; [|apply NoDup_nodup]. intros a b Ha Hb. apply nodup_In, C2 in Ha as (? & ? & ? & _ & _ & _ & ->), Hb as (? & ? & ? & _ & _ & _ & ->). lia.
        * intros d. rewrite in_map_iff. split.
          -- intros (z & <- & Hz). apply nodup_In, C2 in Hz as (e & v & x & Hv & Hx & O & ->). exists e, x. apply D. exists v. rewrite Nat2Z.id. auto.
          -- intros (e & x & H). apply D in H as (v & Hv & Hx & O & ->). exists (Z.of_nat (dof v x)). split; [lia|]. apply nodup_In, C2. eauto 8.
  Qed.
End Whole.
