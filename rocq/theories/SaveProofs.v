From Coq Require Import String Ascii List Arith ZArith Qcanon Bool Lia.
From Verif Require Import Prelude AssembleModel CochainModel CochainProofs3 SaveModel SaveSpec.
Import ListNotations.
Local Open Scope nat_scope.
Local Open Scope list_scope.

Lemma pop_mesh_ok d : is_mesh d -> pop_mesh d = Some d.
Proof. intros (ID & dom & lay & edm & ->). reflexivity. Qed.
Lemma pop_space_ok d : is_space d -> pop_space d = Some d.
Proof. intros (ID & i & n & ->). reflexivity. Qed.
Lemma mesh_not_space d : is_mesh d -> is_space d -> False.
Proof. intros (ID & dom & lay & edm & ->) (ID' & i & n & H). discriminate. Qed.
Lemma hset_same h l d : hset h l d l = d.
Proof. unfold hset. rewrite Nat.eqb_refl. reflexivity. Qed.
Lemma hset_other h l d l' : l' <> l -> hset h l d l' = h l'.
Proof. intros H. unfold hset. destruct (Nat.eqb_spec l' l); [contradiction|reflexivity]. Qed.
Lemma lookup_none (k : string) (d : dict) : ~ In k (map fst d) -> lookup String.eqb k d = None.
Proof.
  induction d as [|[k' v] d IH]; intros H; [reflexivity|]. cbn [lookup]. destruct (String.eqb_spec k k') as [E|E].
  - exfalso. apply H. left. cbn. congruence.
  - apply IH. intros X. apply H. right. exact X.
Qed.
Lemma rename_id d : ~ In "is_hybrid"%string (map fst d) -> rename d = d.
Proof. intros H. unfold rename. rewrite lookup_none by exact H. reflexivity. Qed.

Section P.
  Variable show : dict -> string.
  Variables mesh_ok space_ok : dict -> bool.
  Variables form_ok hybrid : string -> dict -> bool.
  Variable form_name : string -> dict -> string.
  Variable els : dict -> list nat.
  Variable find : dict -> nat -> option (nat * list nat).
  Variable rname : dict -> nat -> string.
  Variable h : heap.
  Notation restoreM := (restore_mesh show mesh_ok).
  Notation restoreS := (restore_space show space_ok).
  Notation restoreF := (restore_form show mesh_ok space_ok form_ok els find rname).
  Notation restore1 := (restore show mesh_ok space_ok form_ok hybrid form_name els find rname).
  Notation loop := (read_loop show mesh_ok space_ok form_ok hybrid form_name els find rname).
  Notation ex := (exists_in mesh_ok space_ok form_ok hybrid els find rname h).
  Notation fex := (form_exists mesh_ok space_ok form_ok els find rname h).
  Notation sm := (same form_name els find rname h).

  (** ** one mesh, one space *)
  (** [keeps l st st']: only the cell l may have changed, to the empty dictionary *)
  Definition keeps (ls : list nat) (st st' : state) : Prop := forall l, ~ In l ls -> st_heap st' l = st_heap st l.
  (** [holds c tag b]: the cache returns b for tag *)
  Definition holds (c : option (string * built)) (tag : string) (b : built) : Prop := c = Some (tag, b).

  Lemma mesh_step st l : faithful show -> caches_ok show st -> is_mesh (h l) -> mesh_ok (h l) = true -> st_heap st l = h l ->
    exists st' b, restoreM st l = Some (st', b) /\ b_par b = h l /\ caches_ok show st' /\ keeps [l] st st' /\
      st_mesh st' = Some (show (h l), b) /\ st_space st' = st_space st /\
      forall b0, st_mesh st = Some (show (h l), b0) -> st' = st /\ b = b0.
  Proof.
    intros [F1 F2] [C1 C2] M Ok E. unfold restore_mesh. rewrite E. destruct (cached (st_mesh st) (show (h l))) as [b|] eqn:Hc.
    - unfold cached in Hc. destruct (st_mesh st) as [[t b']|] eqn:Em; [|discriminate]. destruct (String.eqb_spec (show (h l)) t) as [X|]; [|discriminate].
      injection Hc as <-. exists st, b'. split; [reflexivity|]. split; [exact (C1 _ M (eq_sym X))|]. split; [|split; [intros ? ?; reflexivity|split; [congruence|split; [reflexivity|]]]].
      + split; [rewrite Em; exact C1|exact C2].
      + intros b0 Z. split; [reflexivity|congruence].
    - rewrite (pop_mesh_ok _ M), Ok. eexists _, _. split; [reflexivity|]. split; [reflexivity|]. split; [|split; [|split; [reflexivity|split; [reflexivity|]]]].
      3: { intros b0 Z. rewrite Z in Hc. cbn in Hc. rewrite String.eqb_refl in Hc. discriminate. }
      + split; [|exact C2]. cbn. intros d D X. exact (F1 _ _ M D X).
      + intros l' H. cbn. apply hset_other. intros X. apply H. left. congruence.
  Qed.
  Lemma space_step st l : faithful show -> caches_ok show st -> is_space (h l) -> space_ok (h l) = true -> st_heap st l = h l ->
    exists st' b, restoreS st l = Some (st', b) /\ b_par b = h l /\ caches_ok show st' /\ keeps [l] st st' /\
      st_space st' = Some (show (h l), b) /\ st_mesh st' = st_mesh st /\
      forall b0, st_space st = Some (show (h l), b0) -> st' = st /\ b = b0.
  Proof.
    intros [F1 F2] [C1 C2] M Ok E. unfold restore_space. rewrite E. destruct (cached (st_space st) (show (h l))) as [b|] eqn:Hc.
    - unfold cached in Hc. destruct (st_space st) as [[t b']|] eqn:Em; [|discriminate]. destruct (String.eqb_spec (show (h l)) t) as [X|]; [|discriminate].
      injection Hc as <-. exists st, b'. split; [reflexivity|]. split; [exact (C2 _ M (eq_sym X))|]. split; [|split; [intros ? ?; reflexivity|split; [congruence|split; [reflexivity|]]]].
      + split; [exact C1|rewrite Em; exact C2].
      + intros b0 Z. split; [reflexivity|congruence].
    - rewrite (pop_space_ok _ M), Ok. eexists _, _. split; [reflexivity|]. split; [reflexivity|]. split; [|split; [|split; [reflexivity|split; [reflexivity|]]]].
      3: { intros b0 Z. rewrite Z in Hc. cbn in Hc. rewrite String.eqb_refl in Hc. discriminate. }
      + split; [exact C1|]. cbn. intros d D X. exact (F2 _ _ M D X).
      + intros l' H. cbn. apply hset_other. intros X. apply H. left. congruence.
  Qed.

  (** ** one form *)
  Lemma form_class ID : In ID form_IDs -> exists c, class_of ID = Some c /\ smem c readable_forms = true /\
    String.eqb c "_3dCSCG_Mesh" = false /\ String.eqb c "_3dCSCG_PolynomialSpace" = false.
  Proof. intros H. cbn in H. repeat (destruct H as [<-|H]; [eexists; repeat split; reflexivity|]). contradiction. Qed.
  Lemma dual_class ID : In ID prime_IDs -> In ID form_IDs /\ exists c, dual_class_of ID = Some c /\ smem c readable_forms = false /\ smem c readable_duals = true /\
    String.eqb c "_3dCSCG_Mesh" = false /\ String.eqb c "_3dCSCG_PolynomialSpace" = false /\
    In (ID, c) [("0-f", "_3dCSCG_S0_ADF"); ("1-f", "_3dCSCG_S1_ADF"); ("2-f", "_3dCSCG_S2_ADF"); ("3-f", "_3dCSCG_S3_ADF");
                ("0-t", "_3dCSCG_T0_ADF"); ("1-t", "_3dCSCG_T1_ADF"); ("2-t", "_3dCSCG_T2_ADF")]%string.
  Proof.
    intros H. cbn in H.
    repeat (destruct H as [<-|H]; [split; [cbn; tauto|]; eexists; repeat split; try reflexivity; cbn; tauto|]). contradiction.
  Qed.
  Lemma form_step st f p : faithful show -> caches_ok show st -> In (f_ID f) form_IDs -> fex f -> form_params f = Some p ->
    st_heap st (f_mp f) = h (f_mp f) -> st_heap st (f_sp f) = h (f_sp f) -> st_heap st (f_kw f) = h (f_kw f) ->
    exists st' r, restoreF st p = Some (st', r) /\ same_form els find rname h f r /\ caches_ok show st' /\ keeps [f_mp f; f_sp f] st st' /\
      st_mesh st' = Some (show (h (f_mp f)), r_mesh r) /\ st_space st' = Some (show (h (f_sp f)), r_space r) /\
      (forall b0, st_mesh st = Some (show (h (f_mp f)), b0) -> r_mesh r = b0) /\ (forall b0, st_space st = Some (show (h (f_sp f)), b0) -> r_space r = b0) /\
      forall b0 b1, st_mesh st = Some (show (h (f_mp f)), b0) -> st_space st = Some (show (h (f_sp f)), b1) -> forall l, st_heap st' l = st_heap st l.
  Proof.
    intros F C I (M & Mo & S & So & Kw & Fo & c & loc & Ec & El) Ep H1 H2 H3.
    unfold form_params in Ep. rewrite Ec in Ep. cbn [option_map] in Ep. injection Ep as <-. cbn [restore_form]. rewrite H3, (rename_id _ Kw).
    change (String.eqb "_3dCSCG_Form" "_3dCSCG_Form") with true. cbv iota.
    set (st0 := forget_heap st (hset (st_heap st) (f_kw f) (h (f_kw f)))).
    assert (K0 : forall l, st_heap st0 l = st_heap st l).
    { intros l. cbn. unfold hset. destruct (Nat.eqb_spec l (f_kw f)) as [->|]; [symmetry; exact H3|reflexivity]. }
    destruct (space_step st0 (f_sp f) F C S So) as (st1 & s & -> & Ps & C1 & K1 & Hs1 & Hm1 & W1); [rewrite K0; exact H2|].
    assert (Hne : f_mp f <> f_sp f) by (intros X; rewrite X in M; exact (mesh_not_space _ M S)).
    destruct (mesh_step st1 (f_mp f) F C1 M Mo) as (st2 & m & -> & Pm & C2 & K2 & Hm2 & Hs2 & W2).
    { rewrite K1 by (intros [X|[]]; congruence). rewrite K0. exact H1. }
    destruct (form_class _ I) as (cl & -> & _). rewrite Fo. unfold give. rewrite Pm, El. cbn [option_map]. eexists _, _. split; [reflexivity|].
    split; [|split; [exact C2|split; [|split; [exact Hm2|split; [rewrite Hs2; exact Hs1|split; [|split]]]]]].
    3: { intros b0 Z. apply W2. rewrite Hm1. exact Z. }
    3: { intros b0 Z. apply W1. exact Z. }
    3: { intros b0 b1 Z0 Z1 l. destruct (W2 b0) as [-> _]; [rewrite Hm1; exact Z0|]. destruct (W1 b1 Z1) as [-> _]. apply K0. }
    - repeat split; cbn; try assumption. exists c, loc. repeat split; assumption.
    - intros l X. rewrite K2, K1, K0; [reflexivity| |]; intros [Y|[]]; apply X; cbn; tauto.
  Qed.

  (** ** one object *)
  Lemma step st o : faithful show -> caches_ok show st -> ex o ->
    (forall l, In l (addrs o ++ kwargs_of o) -> st_heap st l = h l) ->
    exists e st' r, save1 o = Some e /\ restore1 st e = Some (st', r) /\ sm o r /\ caches_ok show st' /\ keeps (addrs o) st st' /\
      (forall l, mesh_at o = Some l -> exists b, mesh_read r = Some b /\ st_mesh st' = Some (show (h l), b)) /\
      (forall l, space_at o = Some l -> exists b, space_read r = Some b /\ st_space st' = Some (show (h l), b)) /\
      (mesh_at o = None -> mesh_read r = None /\ st_mesh st' = st_mesh st) /\ (space_at o = None -> space_read r = None /\ st_space st' = st_space st) /\
      (forall l b0, mesh_at o = Some l -> st_mesh st = Some (show (h l), b0) -> mesh_read r = Some b0) /\
      (forall l b0, space_at o = Some l -> st_space st = Some (show (h l), b0) -> space_read r = Some b0) /\
      ((forall l, mesh_at o = Some l -> exists b0, st_mesh st = Some (show (h l), b0)) -> (forall l, space_at o = Some l -> exists b0, st_space st = Some (show (h l), b0)) ->
       forall l, st_heap st' l = st_heap st l).
  Proof.
    intros F C E H. destruct o as [l|l|f|nm f]; cbn [exists_in] in E.
    - destruct E as [M Ok]. destruct (mesh_step st l F C M Ok) as (st' & b & Hr & Pb & C' & K & Hm & Hs & W); [apply H; left; reflexivity|].
      eexists _, st', (RMesh b). split; [reflexivity|]. unfold restore. cbn [e_obj e_par]. change (String.eqb "_3dCSCG_Mesh" "_3dCSCG_Mesh") with true. cbv iota. rewrite Hr.
      split; [reflexivity|]. split; [exact Pb|]. split; [exact C'|]. split; [exact K|]. cbn. repeat split.
      + intros l0 X. exists b. injection X as <-. split; [reflexivity|exact Hm].
      + intros l0 X. discriminate.
      + discriminate.
      + discriminate.
      + exact Hs.
      + intros l0 b0 X Y. injection X as <-. destruct (W _ Y) as [_ ->]. reflexivity.
      + discriminate.
      + intros X _. destruct (X l eq_refl) as [b0 Y]. destruct (W _ Y) as [-> _]. reflexivity.
    - destruct E as [M Ok]. destruct (space_step st l F C M Ok) as (st' & b & Hr & Pb & C' & K & Hm & Hs & W); [apply H; left; reflexivity|].
      eexists _, st', (RSpace b). split; [reflexivity|]. unfold restore. cbn [e_obj e_par].
      change (String.eqb "_3dCSCG_PolynomialSpace" "_3dCSCG_Mesh") with false. change (String.eqb "_3dCSCG_PolynomialSpace" "_3dCSCG_PolynomialSpace") with true. cbv iota. rewrite Hr.
      split; [reflexivity|]. split; [exact Pb|]. split; [exact C'|]. split; [exact K|]. cbn. repeat split.
      + intros l0 X. discriminate.
      + intros l0 X. exists b. injection X as <-. split; [reflexivity|exact Hm].
      + exact Hs.
      + discriminate.
      + discriminate.
      + discriminate.
      + intros l0 b0 X Y. injection X as <-. destruct (W _ Y) as [_ ->]. reflexivity.
      + intros _ X. destruct (X l eq_refl) as [b0 Y]. destruct (W _ Y) as [-> _]. reflexivity.
    - destruct E as [I Fx]. assert (exists p, form_params f = Some p) as [p Ep].
      { destruct Fx as (_ & _ & _ & _ & _ & _ & c & _ & Ec & _). unfold form_params. rewrite Ec. eexists. reflexivity. }
      destruct (form_step st f p F C I Fx Ep) as (st' & r & Hr & Sr & C' & K & Hm & Hs & W1 & W2 & W3); try (apply H; cbn; tauto).
      destruct (form_class _ I) as (cl & Ecl & Rd & N1 & N2). eexists _, st', (RForm r). cbn [save1]. rewrite Ecl, Ep. split; [reflexivity|].
      unfold restore. cbn [e_obj e_par]. rewrite N1, N2, Rd, Hr. split; [reflexivity|]. split; [exact Sr|]. split; [exact C'|]. split; [exact K|].
      cbn. split; [|split; [|split; [discriminate|split; [discriminate|split; [|split]]]]].
      3: { intros l0 b0 X Y. injection X as <-. f_equal. exact (W1 _ Y). }
      3: { intros l0 b0 X Y. injection X as <-. f_equal. exact (W2 _ Y). }
      3: { intros X Y. destruct (X _ eq_refl) as [b0 X']. destruct (Y _ eq_refl) as [b1 Y']. exact (W3 _ _ X' Y'). }
      + intros l0 X. injection X as <-. exists (r_mesh r). split; [reflexivity|exact Hm].
      + intros l0 X. injection X as <-. exists (r_space r). split; [reflexivity|exact Hs].
    - destruct E as (I & Fx & Hy). assert (exists p, form_params f = Some p) as [p Ep].
      { destruct Fx as (_ & _ & _ & _ & _ & _ & c & _ & Ec & _). unfold form_params. rewrite Ec. eexists. reflexivity. }
      destruct (dual_class _ I) as (I' & cl & Ecl & Nr & Rd & N1 & N2 & Icl).
      destruct (form_step st f p F C I' Fx Ep) as (st' & r & Hr & Sr & C' & K & Hm & Hs & W1 & W2 & W3); try (apply H; cbn; tauto).
      pose proof Sr as (E1 & _ & _ & E4 & _).
      eexists _, st', (RDual cl (String.append "AD_" (form_name (f_ID f) (h (f_kw f)))) r). cbn [save1]. rewrite Ecl, Ep. split; [reflexivity|].
      unfold restore. cbn [e_obj e_par]. rewrite N1, N2, Nr, Rd. unfold restore_dual. rewrite Hr, E1, Ecl, E4, Hy. split; [reflexivity|].
      split; [split; [exact Sr|split; [reflexivity|exact Icl]]|]. split; [exact C'|]. split; [exact K|].
      cbn. split; [|split; [|split; [discriminate|split; [discriminate|split; [|split]]]]].
      3: { intros l0 b0 X Y. injection X as <-. f_equal. exact (W1 _ Y). }
      3: { intros l0 b0 X Y. injection X as <-. f_equal. exact (W2 _ Y). }
      3: { intros X Y. destruct (X _ eq_refl) as [b0 X']. destruct (Y _ eq_refl) as [b1 Y']. exact (W3 _ _ X' Y'). }
      + intros l0 X. injection X as <-. exists (r_mesh r). split; [reflexivity|exact Hm].
      + intros l0 X. injection X as <-. exists (r_space r). split; [reflexivity|exact Hs].
  Qed.
  Lemma saved o : ex o -> exists e, save1 o = Some e.
  Proof.
    intros E. destruct o as [l|l|f|nm f]; cbn [save1 exists_in] in *; try (eexists; reflexivity).
    - destruct E as [I (_ & _ & _ & _ & _ & _ & c & _ & Ec & _)]. destruct (form_class _ I) as (cl & -> & _). unfold form_params. rewrite Ec. eexists. reflexivity.
    - destruct E as (I & (_ & _ & _ & _ & _ & _ & c & _ & Ec & _) & _). destruct (dual_class _ I) as (_ & cl & -> & _). unfold form_params. rewrite Ec. eexists. reflexivity.
  Qed.

  (** ** a list *)
  Definition chosen (bos : list (bool * object)) : list object := map snd (filter fst bos).
  Lemma loop_ok bos : faithful show -> Forall ex (map snd bos) -> NoDup (flat_map addrs (chosen bos)) ->
    (forall l, In l (flat_map addrs (chosen bos)) -> In l (flat_map kwargs_of (chosen bos)) -> False) ->
    forall st, caches_ok show st -> (forall l, In l (flat_map addrs (chosen bos) ++ flat_map kwargs_of (chosen bos)) -> st_heap st l = h l) ->
    exists es st' rs, all_some (map save1 (map snd bos)) = Some es /\ loop st (combine (map fst bos) es) = Some (st', rs) /\
      Forall2 (same_if form_name els find rname h) bos rs /\ caches_ok show st'.
  Proof.
    intros F. induction bos as [|[b o] bos IH]; intros E ND DJ st C H.
    { exists [], st, []. split; [reflexivity|]. split; [reflexivity|]. split; [constructor|exact C]. }
    cbn [map snd fst] in E |- *. inversion E as [|? ? Eo Er]; subst. destruct b.
    - cbn [chosen filter fst map snd flat_map] in ND, DJ, H. fold (chosen bos) in ND, DJ, H.
      destruct (step st o F C Eo) as (e & st1 & r & Hs & Hr & Sr & C1 & K & _).
      { intros l Hl. apply H. apply in_app_or in Hl. rewrite !in_app_iff. destruct Hl; tauto. }
      assert (ND' : NoDup (flat_map addrs (chosen bos)) /\ forall l, In l (addrs o) -> ~ In l (flat_map addrs (chosen bos))).
      { clear - ND. induction (addrs o) as [|a l' IHl]; [split; [exact ND|intros ? []]|]. cbn in ND. apply NoDup_cons_iff in ND as [Na ND]. destruct (IHl ND) as [A B].
        split; [exact A|]. intros l [<-|Hl]; [|exact (B l Hl)]. intros X. apply Na, in_or_app. right. exact X. }
      destruct ND' as [ND1 ND2].
      destruct (IH Er ND1) with (st := st1) as (es & st2 & rs & Hes & Hl & Sm & C2); [|exact C1| |].
      { intros l X Y. apply (DJ l); apply in_or_app; right; assumption. }
      { intros l Hl. rewrite K.
        - apply H. rewrite !in_app_iff in *. tauto.
        - intros X. apply in_app_or in Hl as [Hl|Hl]; [exact (ND2 l X Hl)|]. apply (DJ l); apply in_or_app; [left; exact X|right; exact Hl]. }
      exists (e :: es), st2, (r :: rs). cbn [all_some]. rewrite Hs, Hes. split; [reflexivity|]. cbn [combine read_loop]. rewrite Hr, Hl.
      split; [reflexivity|]. split; [constructor; [exact Sr|exact Sm]|exact C2].
    - cbn [chosen filter fst map snd flat_map] in ND, DJ, H. fold (chosen bos) in ND, DJ, H.
      destruct (saved o Eo) as [e Hs]. destruct (IH Er ND DJ st C H) as (es & st2 & rs & Hes & Hl & Sm & C2).
      exists (e :: es), st2, (RNone :: rs). cbn [all_some]. rewrite Hs, Hes. split; [reflexivity|]. cbn [combine read_loop]. rewrite Hl.
      split; [reflexivity|]. split; [constructor; [reflexivity|exact Sm]|exact C2].
  Qed.
End P.
