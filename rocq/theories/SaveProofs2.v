From Coq Require Import String Ascii List Arith ZArith Qcanon Bool Lia.
From Verif Require Import Prelude AssembleModel CochainModel CochainProofs3 SaveModel SaveSpec SaveProofs.
Import ListNotations.
Local Open Scope nat_scope.
Local Open Scope list_scope.

Lemma pack_of rs : (length rs <> 1 -> pack rs = Objects rs) /\ (forall r, rs = [r] -> pack rs = Object r).
Proof. split; [intros H; destruct rs as [|a [|b l]]; try reflexivity; cbn in H; lia|intros r ->; reflexivity]. Qed.
Lemma infos_ok os : forallb (fun i => match i with BadInfo => false | _ => true end) (map saving_info os) = true.
Proof.
  induction os as [|o os IH]; [reflexivity|]. cbn [map forallb]. rewrite IH. destruct o as [| |f|]; try reflexivity. cbn [saving_info]. destruct (class_of (f_ID f)); reflexivity.
Qed.
Lemma map_fst_combine {A B} (l : list A) (l' : list B) : length l = length l' -> map fst (combine l l') = l.
Proof. revert l'. induction l as [|a l IH]; intros [|b l'] H; try discriminate; [reflexivity|]. cbn. f_equal. apply IH. cbn in H. lia. Qed.
Lemma map_snd_combine {A B} (l : list A) (l' : list B) : length l = length l' -> map snd (combine l l') = l'.
Proof. revert l'. induction l as [|a l IH]; intros [|b l'] H; try discriminate; [reflexivity|]. cbn. f_equal. apply IH. cbn in H. lia. Qed.
Lemma all_some_len {A} (l : list (option A)) l' : all_some l = Some l' -> length l' = length l.
Proof.
  revert l'. induction l as [|[a|] l IH]; intros l' H; cbn in H; try discriminate.
  - injection H as <-. reflexivity.
  - destruct (all_some l) as [l0|]; [|discriminate]. injection H as <-. cbn. rewrite (IH l0 eq_refl). reflexivity.
Qed.
Lemma Forall2_length {A B} (R : A -> B -> Prop) l l' : Forall2 R l l' -> length l = length l'.
Proof. induction 1; cbn; congruence. Qed.
Definition z_of (b : bool) : Z := if b then 1%Z else 0%Z.
Lemma mask_each bs n : length bs = n -> mask (Each (map z_of bs)) n = Some bs.
Proof.
  intros <-. cbn. rewrite map_length, Nat.eqb_refl. cbn [andb].
  assert (forallb (fun z => (z =? 0)%Z || (z =? 1)%Z) (map z_of bs) = true) as -> by (induction bs as [|[|] bs IH]; [reflexivity|exact IH|exact IH]).
  f_equal. rewrite map_map. rewrite <- (map_id bs) at 2. apply map_ext. intros [|]; reflexivity.
Qed.
Lemma chosen_all (os : list object) : chosen (combine (repeat true (length os)) os) = os.
Proof. unfold chosen. induction os as [|o os IH]; [reflexivity|]. cbn. f_equal. exact IH. Qed.

Section P.
  Variable show : dict -> string.
  Variables mesh_ok space_ok : dict -> bool.
  Variables form_ok hybrid : string -> dict -> bool.
  Variable form_name : string -> dict -> string.
  Variable els : dict -> list nat.
  Variable find : dict -> nat -> option (nat * list nat).
  Variable rname : dict -> nat -> string.
  Variable h : heap.
  Notation restore1 := (restore show mesh_ok space_ok form_ok hybrid form_name els find rname).
  Notation loop := (read_loop show mesh_ok space_ok form_ok hybrid form_name els find rname).
  Notation rd := (read show mesh_ok space_ok form_ok hybrid form_name els find rname).
  Notation ex := (exists_in mesh_ok space_ok form_ok hybrid els find rname h).
  Notation sm := (same form_name els find rname h).

  Lemma read_of os es st ri m st' rs : all_some (map save1 os) = Some es -> mask ri (length os) = Some m -> loop st (combine m es) = Some (st', rs) ->
    save_list os = Some (Many es (Some (map saving_info os))) /\ rd st (Many es (Some (map saving_info os))) ri = Some (st', pack rs).
  Proof.
    intros H1 H2 H3. unfold save_list. rewrite H1. split; [reflexivity|]. unfold read. cbn [contents]. rewrite infos_ok. cbv iota beta.
    pose proof (all_some_len _ _ H1) as L. rewrite map_length in L. rewrite L, H2, H3. reflexivity.
  Qed.
  Lemma save_rep os f : save_list os = Some f -> exists es, all_some (map save1 os) = Some es /\ f = Many es (Some (map saving_info os)).
  Proof. unfold save_list. destruct (all_some (map save1 os)) as [es|]; [|discriminate]. intros H. injection H as <-. exists es. split; reflexivity. Qed.

  Lemma individuals_ok bs os st : length bs = length os -> faithful show -> Forall ex os ->
    let sel := map snd (filter fst (combine bs os)) in NoDup (flat_map addrs sel) ->
    (forall l, In l (flat_map addrs sel) -> ~ In l (flat_map kwargs_of sel)) ->
    caches_ok show st -> (forall l, st_heap st l = h l) ->
    exists f st' rs res, save_list os = Some f /\ rd st f (Each (map z_of bs)) = Some (st', res) /\
      Forall2 (same_if form_name els find rname h) (combine bs os) rs /\ caches_ok show st' /\
      (length os <> 1 -> res = Objects rs) /\ (forall r, rs = [r] -> res = Object r).
  Proof.
    intros L F E sel ND DJ C H.
    destruct (loop_ok show mesh_ok space_ok form_ok hybrid form_name els find rname h (combine bs os) F) with (st := st) as (es & st' & rs & He & Hl & Sm & C').
    - rewrite map_snd_combine by exact L. exact E.
    - exact ND.
    - intros l X Y. exact (DJ l X Y).
    - exact C.
    - intros l _. apply H.
    - rewrite map_snd_combine in He by exact L. rewrite map_fst_combine in Hl by exact L.
      destruct (read_of os es st (Each (map z_of bs)) bs st' rs He (mask_each _ _ L) Hl) as [Hs Hr].
      eexists _, st', rs, _. split; [exact Hs|]. split; [exact Hr|]. split; [exact Sm|]. split; [exact C'|].
      assert (length rs = length os) as Lr. { rewrite <- (Forall2_length _ _ _ Sm), combine_length. lia. }
      rewrite <- Lr. apply pack_of.
  Qed.
  Lemma same_ifs os rs : Forall2 (same_if form_name els find rname h) (combine (repeat true (length os)) os) rs -> Forall2 sm os rs.
  Proof. revert rs. induction os as [|o os IH]; intros rs H; cbn in H; inversion H; subst; constructor; [assumption|apply IH; assumption]. Qed.
  Lemma all_ok os st : faithful show -> Forall ex os -> NoDup (flat_map addrs os) ->
    (forall l, In l (flat_map addrs os) -> ~ In l (flat_map kwargs_of os)) -> caches_ok show st -> (forall l, st_heap st l = h l) ->
    exists f st' rs res, save_list os = Some f /\ rd st f All = Some (st', res) /\ Forall2 sm os rs /\ caches_ok show st' /\
      (length os <> 1 -> res = Objects rs) /\ (forall r, rs = [r] -> res = Object r).
  Proof.
    intros F E ND DJ C H. pose proof (repeat_length true (length os)) as L.
    destruct (loop_ok show mesh_ok space_ok form_ok hybrid form_name els find rname h (combine (repeat true (length os)) os) F) with (st := st) as (es & st' & rs & He & Hl & Sm & C').
    - rewrite map_snd_combine by exact L. exact E.
    - rewrite chosen_all. exact ND.
    - rewrite chosen_all. intros l X Y. exact (DJ l X Y).
    - exact C.
    - intros l _. apply H.
    - rewrite map_snd_combine in He by exact L. rewrite map_fst_combine in Hl by exact L.
      destruct (read_of os es st All (repeat true (length os)) st' rs He eq_refl Hl) as [Hs Hr].
      eexists _, st', rs, _. split; [exact Hs|]. split; [exact Hr|]. split; [exact (same_ifs _ _ Sm)|]. split; [exact C'|].
      rewrite (Forall2_length _ _ _ (same_ifs _ _ Sm)). apply pack_of.
  Qed.
  Lemma one_ok o st : faithful show -> ex o -> (forall l, In l (addrs o) -> ~ In l (kwargs_of o)) -> caches_ok show st -> (forall l, st_heap st l = h l) ->
    exists f st' r, save_one o = Some f /\ rd st f All = Some (st', Object r) /\ sm o r /\ caches_ok show st'.
  Proof.
    intros F E DJ C H. destruct (step show mesh_ok space_ok form_ok hybrid form_name els find rname h st o F C E) as (e & st' & r & Hs & Hr & Sr & C' & _); [intros; apply H|].
    exists (One e), st', r. unfold save_one. rewrite Hs. split; [reflexivity|]. unfold read. cbn. rewrite Hr. repeat split; try assumption; apply C'.
  Qed.

  (** ** one mesh object *)
  Lemma loop_id os d : faithful show -> Forall ex os -> Forall (fun o => has_mesh h o d) os -> forall st es st' rs,
    NoDup (flat_map addrs os) -> (forall l, In l (flat_map addrs os) -> ~ In l (flat_map kwargs_of os)) -> caches_ok show st ->
    (forall l, In l (flat_map addrs os ++ flat_map kwargs_of os) -> st_heap st l = h l) ->
    all_some (map save1 os) = Some es -> loop st (combine (repeat true (length os)) es) = Some (st', rs) ->
    (forall b, st_mesh st = Some (show d, b) -> Forall (fun r => forall m, mesh_read r = Some m -> m = b) rs) /\
    exists b, Forall (fun r => forall m, mesh_read r = Some m -> m = b) rs.
  Proof.
    intros F. induction os as [|o os IH]; intros E M st es st' rs ND DJ C H He Hl.
    { cbn in He. injection He as <-. cbn in Hl. injection Hl as <- <-. split; [intros; constructor|exists (mkBuilt 0 []); constructor]. }
    inversion E as [|? ? Eo Er]; subst. inversion M as [|? ? Mo Mr]; subst. cbn [flat_map] in ND, DJ, H.
    destruct (step show mesh_ok space_ok form_ok hybrid form_name els find rname h st o F C Eo) as (e & st1 & r & Hs & Hr & Sr & C1 & K & Km & _ & Nm & _ & Wm & _).
    { intros l X. apply H. apply in_app_or in X. rewrite !in_app_iff. destruct X; tauto. }
    cbn [map all_some] in He. rewrite Hs in He. destruct (all_some (map save1 os)) as [es'|] eqn:He'; [|discriminate]. injection He as <-.
    cbn [length repeat combine read_loop] in Hl. rewrite Hr in Hl. destruct (loop st1 (combine (repeat true (length os)) es')) as [[st2 rs']|] eqn:Hl'; [|discriminate].
    cbn in Hl. injection Hl as <- <-.
    assert (ND' : NoDup (flat_map addrs os) /\ forall l, In l (addrs o) -> ~ In l (flat_map addrs os)).
    { clear - ND. induction (addrs o) as [|a l' IHl]; [split; [exact ND|intros ? []]|]. cbn in ND. apply NoDup_cons_iff in ND as [Na ND]. destruct (IHl ND) as [A B].
      split; [exact A|]. intros l [<-|Hl]; [|exact (B l Hl)]. intros X. apply Na, in_or_app. right. exact X. }
    destruct ND' as [ND1 ND2].
    destruct (IH Er Mr st1 es' st2 rs' ND1) as [I1 [b I2]]; try assumption; try reflexivity.
    { intros l X Y. apply (DJ l); apply in_or_app; right; assumption. }
    { intros l X. rewrite K.
      - apply H. rewrite !in_app_iff in *. tauto.
      - intros Y. apply in_app_or in X as [X|X]; [exact (ND2 l Y X)|]. apply (DJ l); apply in_or_app; [left; exact Y|right; exact X]. }
    unfold has_mesh in Mo. destruct (mesh_at o) as [l|] eqn:Ho.
    - destruct (Km l eq_refl) as (bm & Hb & Hm). rewrite Mo in Hm. split.
      + intros b0 Hb0. assert (mesh_read r = Some b0) as X by (apply (Wm l b0 eq_refl); rewrite Mo; exact Hb0).
        constructor; [intros m Y; congruence|]. assert (b0 = bm) as -> by congruence. exact (I1 bm Hm).
      + exists bm. constructor; [intros m Y; congruence|]. exact (I1 bm Hm).
    - destruct (Nm eq_refl) as [N1 N2]. split.
      + intros b0 Hb0. constructor; [intros m Y; congruence|]. apply I1. rewrite N2. exact Hb0.
      + exists b. constructor; [intros m Y; congruence|exact I2].
  Qed.
  Lemma one_mesh os st d f st' res : faithful show -> Forall ex os -> Forall (fun o => has_mesh h o d) os -> NoDup (flat_map addrs os) ->
    (forall l, In l (flat_map addrs os) -> ~ In l (flat_map kwargs_of os)) -> caches_ok show st -> (forall l, st_heap st l = h l) ->
    save_list os = Some f -> rd st f All = Some (st', res) ->
    exists i, match res with Objects rs => Forall (on_mesh i) rs | Object r => on_mesh i r end.
  Proof.
    intros F E M ND DJ C H Hs Hr. destruct (save_rep _ _ Hs) as (es & He & ->). unfold read in Hr. cbn [contents] in Hr. rewrite infos_ok in Hr. cbv iota beta in Hr. cbn [mask] in Hr.
    pose proof (all_some_len _ _ He) as L. rewrite map_length in L. rewrite L in Hr.
    destruct (loop st (combine (repeat true (length os)) es)) as [[st1 rs]|] eqn:Hl; [|discriminate]. cbn in Hr. injection Hr as <- <-.
    destruct (loop_id os d F E M st es st1 rs ND DJ C (fun l _ => H l) He Hl) as [_ [b I]]. exists (b_id b).
    assert (Forall (on_mesh (b_id b)) rs) as X.
    { eapply Forall_impl; [|exact I]. intros r Y. unfold on_mesh. destruct (mesh_read r) as [m|] eqn:Em; [|exact Logic.I]. rewrite (Y m Em). reflexivity. }
    destruct rs as [|r [|r' rs']]; cbn [pack]; try exact X. inversion X. assumption.
  Qed.

  (** ** caches that hold mesh and space: dictionaries may be shared *)
  Lemma loop_warm os dm ds bm bs : faithful show -> Forall ex os -> Forall (fun o => has_mesh h o dm) os -> Forall (fun o => has_space h o ds) os ->
    forall st, caches_ok show st -> (forall l, st_heap st l = h l) -> st_mesh st = Some (show dm, bm) -> st_space st = Some (show ds, bs) ->
    exists es st' rs, all_some (map save1 os) = Some es /\ loop st (combine (repeat true (length os)) es) = Some (st', rs) /\ Forall2 sm os rs /\
      Forall (on_mesh (b_id bm)) rs /\ Forall (on_space (b_id bs)) rs.
  Proof.
    intros F. induction os as [|o os IH]; intros E M S st C H Cm Cs.
    { exists [], st, []. split; [reflexivity|]. split; [reflexivity|]. repeat split; constructor. }
    inversion E as [|? ? Eo Er]; subst. inversion M as [|? ? Mo Mr]; subst. inversion S as [|? ? So Sr]; subst.
    destruct (step show mesh_ok space_ok form_ok hybrid form_name els find rname h st o F C Eo) as (e & st1 & r & Hs & Hr & Sa & C1 & K & Km & Ks & Nm & Ns & Wm & Ws & Wh).
    { intros l _. apply H. }
    unfold has_mesh in Mo. unfold has_space in So.
    assert (H1 : forall l, st_heap st1 l = st_heap st l).
    { apply Wh; intros l X; rewrite X in *; eexists; [rewrite Mo; exact Cm|rewrite So; exact Cs]. }
    assert (Cm1 : st_mesh st1 = Some (show dm, bm) /\ on_mesh (b_id bm) r).
    { unfold on_mesh. destruct (mesh_at o) as [l|] eqn:Ho.
      - destruct (Km l eq_refl) as (b & X & Y). pose proof (Wm l bm eq_refl) as Z. rewrite Mo in Y, Z. specialize (Z Cm). rewrite Z. split; [congruence|reflexivity].
      - destruct (Nm eq_refl) as [-> ->]. split; [exact Cm|exact I]. }
    assert (Cs1 : st_space st1 = Some (show ds, bs) /\ on_space (b_id bs) r).
    { unfold on_space. destruct (space_at o) as [l|] eqn:Ho.
      - destruct (Ks l eq_refl) as (b & X & Y). pose proof (Ws l bs eq_refl) as Z. rewrite So in Y, Z. specialize (Z Cs). rewrite Z. split; [congruence|reflexivity].
      - destruct (Ns eq_refl) as [-> ->]. split; [exact Cs|exact I]. }
    destruct Cm1 as [Cm1 Om], Cs1 as [Cs1 Os].
    destruct (IH Er Mr Sr st1 C1) as (es & st2 & rs & He & Hl & Sm & Am & As); try assumption; [intros l; rewrite H1; apply H|].
    exists (e :: es), st2, (r :: rs). cbn [map all_some]. rewrite Hs, He. split; [reflexivity|]. cbn [length repeat combine read_loop]. rewrite Hr, Hl.
    split; [reflexivity|]. repeat split; constructor; assumption.
  Qed.
  Lemma warm_ok os dm ds bm bs st : faithful show -> Forall ex os -> Forall (fun o => has_mesh h o dm) os -> Forall (fun o => has_space h o ds) os ->
    caches_ok show st -> (forall l, st_heap st l = h l) -> st_mesh st = Some (show dm, bm) -> st_space st = Some (show ds, bs) ->
    exists f st' rs, save_list os = Some f /\ rd st f All = Some (st', pack rs) /\ Forall2 sm os rs /\ Forall (on_mesh (b_id bm)) rs /\ Forall (on_space (b_id bs)) rs.
  Proof.
    intros F E M S C H Cm Cs. destruct (loop_warm os dm ds bm bs F E M S st C H Cm Cs) as (es & st' & rs & He & Hl & X).
    destruct (read_of os es st All _ st' rs He eq_refl Hl) as [Hs Hr]. eexists _, st', rs. split; [exact Hs|]. split; [exact Hr|exact X].
  Qed.

  (** ** shared dictionaries and cold caches *)
  Definition tags_ok (st : state) : Prop := cached (st_mesh st) (show []) = None /\ cached (st_space st) (show []) = None.
  Definition grows (st st' : state) : Prop := (forall l, st_heap st l = [] -> st_heap st' l = []) /\ (tags_ok st -> tags_ok st').
  Lemma pop_mesh_nonempty d p : pop_mesh d = Some p -> d <> [].
  Proof. intros H ->. discriminate. Qed.
  Lemma pop_space_nonempty d p : pop_space d = Some p -> d <> [].
  Proof. intros H ->. discriminate. Qed.
  Hypothesis NE : forall d, d <> [] -> show d <> show [].
  Lemma mesh_grows st l st' b : restore_mesh show mesh_ok st l = Some (st', b) -> grows st st' /\ (tags_ok st -> st_heap st l <> []).
  Proof.
    unfold restore_mesh. destruct (cached (st_mesh st) (show (st_heap st l))) as [b0|] eqn:Hc.
    - intros H. injection H as <- <-. split; [split; [trivial|trivial]|]. intros [T _] X. rewrite X in Hc. congruence.
    - destruct (pop_mesh (st_heap st l)) as [p|] eqn:Hp; [|discriminate]. destruct (mesh_ok p); [|discriminate]. intros H. injection H as <- <-.
      pose proof (pop_mesh_nonempty _ _ Hp) as N. split; [|intros _; exact N]. split.
      + intros l' X. cbn. unfold hset. destruct (l' =? l); [reflexivity|exact X].
      + intros [T1 T2]. split; cbn; [|exact T2]. destruct (String.eqb_spec (show []) (show (st_heap st l))) as [Y|]; [|reflexivity]. exfalso. exact (NE _ N (eq_sym Y)).
  Qed.
  Lemma space_grows st l st' b : restore_space show space_ok st l = Some (st', b) -> grows st st' /\ (tags_ok st -> st_heap st l <> []).
  Proof.
    unfold restore_space. destruct (cached (st_space st) (show (st_heap st l))) as [b0|] eqn:Hc.
    - intros H. injection H as <- <-. split; [split; [trivial|trivial]|]. intros [_ T] X. rewrite X in Hc. congruence.
    - destruct (pop_space (st_heap st l)) as [p|] eqn:Hp; [|discriminate]. destruct (space_ok p); [|discriminate]. intros H. injection H as <- <-.
      pose proof (pop_space_nonempty _ _ Hp) as N. split; [|intros _; exact N]. split.
      + intros l' X. cbn. unfold hset. destruct (l' =? l); [reflexivity|exact X].
      + intros [T1 T2]. split; cbn; [exact T1|]. destruct (String.eqb_spec (show []) (show (st_heap st l))) as [Y|]; [|reflexivity]. exfalso. exact (NE _ N (eq_sym Y)).
  Qed.
  Lemma rename_nil : rename [] = [].
  Proof. reflexivity. Qed.
  Lemma form_grows st t ID mp sp kw c st' r : restore_form show mesh_ok space_ok form_ok els find rname st (PForm t ID mp sp kw c) = Some (st', r) ->
    grows st st' /\ (tags_ok st -> st_heap st mp <> [] /\ st_heap st sp <> []).
  Proof.
    cbn [restore_form]. destruct (String.eqb t "_3dCSCG_Form"); [|discriminate].
    set (st0 := forget_heap st (hset (st_heap st) kw (rename (st_heap st kw)))).
    destruct (restore_space show space_ok st0 sp) as [[st1 s]|] eqn:H1; [|discriminate]. destruct (restore_mesh show mesh_ok st1 mp) as [[st2 m]|] eqn:H2; [|discriminate].
    destruct (class_of ID); [|discriminate]. destruct (form_ok ID (rename (st_heap st kw))); [|discriminate]. destruct (give els find rname (b_par m) c); [|discriminate].
    intros H. injection H as <- <-. destruct (space_grows _ _ _ _ H1) as [[A1 A2] A3]. destruct (mesh_grows _ _ _ _ H2) as [[B1 B2] B3].
    assert (Z : forall l, st_heap st l = [] -> st_heap st0 l = []).
    { intros l X. cbn. unfold hset. destruct (Nat.eqb_spec l kw) as [->|]; [rewrite X; reflexivity|exact X]. }
    assert (T : tags_ok st -> tags_ok st0) by (intros X; exact X).
    split; [split; [auto|auto]|]. intros Tg. split; intros X; [apply (B3 (A2 Tg)), A1, Z, X|apply (A3 Tg), Z, X].
  Qed.
  Lemma restore_grows st o e st' r : save1 o = Some e -> restore1 st e = Some (st', r) -> grows st st' /\ (tags_ok st -> forall l, In l (addrs o) -> st_heap st l <> []).
  Proof.
    assert (FP : forall f p, form_params f = Some p -> exists c, p = PForm "_3dCSCG_Form" (f_ID f) (f_mp f) (f_sp f) (f_kw f) c).
    { intros f p. unfold form_params. destruct (f_rw f); [|discriminate]. intros H. injection H as <-. eexists. reflexivity. }
    intros He Hr. destruct o as [l|l|f|nm f]; cbn [save1] in He.
    - injection He as <-. unfold restore in Hr. cbn [e_obj e_par] in Hr. change (String.eqb "_3dCSCG_Mesh" "_3dCSCG_Mesh") with true in Hr. cbv iota in Hr.
      destruct (restore_mesh show mesh_ok st l) as [[st1 b]|] eqn:H1; [|discriminate]. cbn in Hr. injection Hr as <- <-. destruct (mesh_grows _ _ _ _ H1) as [A B].
      split; [exact A|]. intros T l0 [<-|[]]. exact (B T).
    - injection He as <-. unfold restore in Hr. cbn [e_obj e_par] in Hr. change (String.eqb "_3dCSCG_PolynomialSpace" "_3dCSCG_Mesh") with false in Hr.
      change (String.eqb "_3dCSCG_PolynomialSpace" "_3dCSCG_PolynomialSpace") with true in Hr. cbv iota in Hr.
      destruct (restore_space show space_ok st l) as [[st1 b]|] eqn:H1; [|discriminate]. cbn in Hr. injection Hr as <- <-. destruct (space_grows _ _ _ _ H1) as [A B].
      split; [exact A|]. intros T l0 [<-|[]]. exact (B T).
    - destruct (class_of (f_ID f)) as [cl|] eqn:Hc; [|discriminate]. destruct (form_params f) as [p|] eqn:Hp; [|discriminate]. injection He as <-.
      destruct (FP _ _ Hp) as [c ->]. unfold restore in Hr. cbn [e_obj e_par] in Hr.
      assert (D : String.eqb cl "_3dCSCG_Mesh" = false /\ String.eqb cl "_3dCSCG_PolynomialSpace" = false /\ smem cl readable_duals = false).
      { unfold class_of, classes in Hc. cbn [lookup] in Hc. repeat (match type of Hc with (if ?b then _ else _) = _ => destruct b end; [injection Hc as <-; repeat split; reflexivity|]). discriminate. }
      destruct D as (D1 & D2 & D3). rewrite D1, D2, D3 in Hr. destruct (smem cl readable_forms); [|discriminate].
      destruct (restore_form show mesh_ok space_ok form_ok els find rname st (PForm "_3dCSCG_Form" (f_ID f) (f_mp f) (f_sp f) (f_kw f) c)) as [[st1 x]|] eqn:H1; [|discriminate].
      cbn in Hr. injection Hr as <- <-. destruct (form_grows _ _ _ _ _ _ _ _ _ H1) as [A B]. split; [exact A|]. intros T l [<-|[<-|[]]]; apply (B T).
    - destruct (dual_class_of (f_ID f)) as [cl|] eqn:Hc; [|discriminate]. destruct (form_params f) as [p|] eqn:Hp; [|discriminate]. injection He as <-.
      destruct (FP _ _ Hp) as [c ->]. unfold restore in Hr. cbn [e_obj e_par] in Hr.
      assert (D : String.eqb cl "_3dCSCG_Mesh" = false /\ String.eqb cl "_3dCSCG_PolynomialSpace" = false /\ smem cl readable_forms = false).
      { unfold dual_class_of in Hc. destruct (lookup String.eqb (f_ID f) dual_IDs) as [k|]; [|discriminate]. unfold dual_classes in Hc. cbn [lookup] in Hc.
        repeat (match type of Hc with (if ?b then _ else _) = _ => destruct b end; [injection Hc as <-; repeat split; reflexivity|]). discriminate. }
      destruct D as (D1 & D2 & D3). rewrite D1, D2, D3 in Hr. destruct (smem cl readable_duals); [|discriminate]. unfold restore_dual in Hr.
      destruct (restore_form show mesh_ok space_ok form_ok els find rname st (PForm "_3dCSCG_Form" (f_ID f) (f_mp f) (f_sp f) (f_kw f) c)) as [[st1 x]|] eqn:H1; [|discriminate].
      destruct (dual_class_of (r_ID x)); [|discriminate]. destruct (hybrid (r_ID x) (r_kw x)); [|discriminate].
      injection Hr as <- <-. destruct (form_grows _ _ _ _ _ _ _ _ _ H1) as [A B]. split; [exact A|]. intros T l [<-|[<-|[]]]; apply (B T).
  Qed.
  Lemma loop_blocked os l : forall st es, tags_ok st -> st_heap st l = [] -> In l (flat_map addrs os) -> all_some (map save1 os) = Some es ->
    loop st (combine (repeat true (length os)) es) = None.
  Proof.
    induction os as [|o os IH]; intros st es T Z I He; [destruct I|]. cbn [map all_some] in He. destruct (save1 o) as [e|] eqn:Hs; [|discriminate].
    destruct (all_some (map save1 os)) as [es'|] eqn:He'; [|discriminate]. injection He as <-. cbn [length repeat combine read_loop].
    destruct (restore1 st e) as [[st1 r]|] eqn:Hr; [|reflexivity]. destruct (restore_grows _ _ _ _ _ Hs Hr) as [[G1 G2] G3].
    cbn [flat_map] in I. apply in_app_or in I as [I|I]; [exfalso; exact (G3 T l I Z)|].
    rewrite (IH st1 es' (G2 T) (G1 l Z) I eq_refl). reflexivity.
  Qed.
  Lemma cold_blocked o os st f l : st_mesh st = None -> st_space st = None -> In l (addrs o) -> In l (flat_map addrs os) -> save_list (o :: os) = Some f ->
    rd st f All = None.
  Proof.
    intros C1 C2 I1 I2 Hs. destruct (save_rep _ _ Hs) as (es & He & ->). unfold read. cbn [contents]. rewrite infos_ok. cbv iota beta. cbn [mask].
    pose proof (all_some_len _ _ He) as L. rewrite map_length in L. rewrite L. cbn [map all_some] in He. destruct (save1 o) as [e|] eqn:Hs1; [|discriminate].
    destruct (all_some (map save1 os)) as [es'|] eqn:He'; [|discriminate]. injection He as <-. cbn [length repeat combine read_loop].
    destruct (restore1 st e) as [[st1 r]|] eqn:Hr; [|reflexivity].
    assert (T : tags_ok st) by (split; rewrite ?C1, ?C2; reflexivity). destruct (restore_grows _ _ _ _ _ Hs1 Hr) as [[G1 G2] G3].
    rewrite (loop_blocked os l st1 es' (G2 T)); [reflexivity| |exact I2|exact He'].
    (* the cell was emptied *)
    assert (EM : forall st l st' b, st_mesh st = None -> restore_mesh show mesh_ok st l = Some (st', b) -> st_heap st' l = []).
    { intros s k s' b X Y. unfold restore_mesh in Y. rewrite X in Y. cbn in Y. destruct (pop_mesh (st_heap s k)) as [p|]; [|discriminate].
      destruct (mesh_ok p); [|discriminate]. injection Y as <- <-. cbn. apply hset_same. }
    assert (ES : forall st l st' b, st_space st = None -> restore_space show space_ok st l = Some (st', b) -> st_heap st' l = [] /\ st_mesh st' = st_mesh st).
    { intros s k s' b X Y. unfold restore_space in Y. rewrite X in Y. cbn in Y. destruct (pop_space (st_heap s k)) as [p|]; [|discriminate].
      destruct (space_ok p); [|discriminate]. injection Y as <- <-. cbn. split; [apply hset_same|reflexivity]. }
    assert (EF : forall f p st' x, form_params f = Some p -> restore_form show mesh_ok space_ok form_ok els find rname st p = Some (st', x) ->
      st_heap st' (f_mp f) = [] /\ st_heap st' (f_sp f) = []).
    { intros f p st' x Hp Hx. unfold form_params in Hp. destruct (f_rw f) as [c|]; [|discriminate]. injection Hp as <-. cbn [restore_form] in Hx.
      change (String.eqb "_3dCSCG_Form" "_3dCSCG_Form") with true in Hx. cbv iota in Hx. set (kw := rename (st_heap st (f_kw f))) in *.
      destruct (restore_space show space_ok (forget_heap st (hset (st_heap st) (f_kw f) kw)) (f_sp f)) as [[s1 sp]|] eqn:H1; [|discriminate].
      destruct (restore_mesh show mesh_ok s1 (f_mp f)) as [[s2 m]|] eqn:H2; [|discriminate].
      destruct (class_of (f_ID f)); [|discriminate]. destruct (form_ok (f_ID f) kw); [|discriminate]. destruct (give els find rname (b_par m) (RegionWise c)); [|discriminate].
      injection Hx as <- <-. destruct (ES _ _ _ _ (C2 : st_space (forget_heap st (hset (st_heap st) (f_kw f) kw)) = None) H1) as [A B].
      split; [apply (EM s1 (f_mp f) s2 m); [rewrite B; exact C1|exact H2]|]. destruct (mesh_grows _ _ _ _ H2) as [[G _] _]. apply G, A. }
    destruct o as [k|k|f|nm f]; cbn [save1] in Hs1.
    - injection Hs1 as <-. unfold restore in Hr. cbn [e_obj e_par] in Hr. change (String.eqb "_3dCSCG_Mesh" "_3dCSCG_Mesh") with true in Hr. cbv iota in Hr.
      destruct (restore_mesh show mesh_ok st k) as [[s1 b]|] eqn:H1; [|discriminate]. cbn in Hr. injection Hr as <- <-. destruct I1 as [<-|[]]. exact (EM _ _ _ _ C1 H1).
    - injection Hs1 as <-. unfold restore in Hr. cbn [e_obj e_par] in Hr. change (String.eqb "_3dCSCG_PolynomialSpace" "_3dCSCG_Mesh") with false in Hr.
      change (String.eqb "_3dCSCG_PolynomialSpace" "_3dCSCG_PolynomialSpace") with true in Hr. cbv iota in Hr.
      destruct (restore_space show space_ok st k) as [[s1 b]|] eqn:H1; [|discriminate]. cbn in Hr. injection Hr as <- <-. destruct I1 as [<-|[]]. exact (proj1 (ES _ _ _ _ C2 H1)).
    - destruct (class_of (f_ID f)) as [cl|] eqn:Hc; [|discriminate]. destruct (form_params f) as [p|] eqn:Hp; [|discriminate]. injection Hs1 as <-.
      unfold restore in Hr. cbn [e_obj e_par] in Hr.
      assert (D : String.eqb cl "_3dCSCG_Mesh" = false /\ String.eqb cl "_3dCSCG_PolynomialSpace" = false /\ smem cl readable_duals = false).
      { unfold class_of, classes in Hc. cbn [lookup] in Hc. repeat (match type of Hc with (if ?b then _ else _) = _ => destruct b end; [injection Hc as <-; repeat split; reflexivity|]). discriminate. }
      destruct D as (D1 & D2 & D3). rewrite D1, D2, D3 in Hr. destruct (smem cl readable_forms); [|discriminate].
      destruct (restore_form show mesh_ok space_ok form_ok els find rname st p) as [[s1 x]|] eqn:H1; [|discriminate]. cbn in Hr. injection Hr as <- <-.
      destruct (EF _ _ _ _ Hp H1). destruct I1 as [<-|[<-|[]]]; assumption.
    - destruct (dual_class_of (f_ID f)) as [cl|] eqn:Hc; [|discriminate]. destruct (form_params f) as [p|] eqn:Hp; [|discriminate]. injection Hs1 as <-.
      unfold restore in Hr. cbn [e_obj e_par] in Hr.
      assert (D : String.eqb cl "_3dCSCG_Mesh" = false /\ String.eqb cl "_3dCSCG_PolynomialSpace" = false /\ smem cl readable_forms = false).
      { unfold dual_class_of in Hc. destruct (lookup String.eqb (f_ID f) dual_IDs) as [k|]; [|discriminate]. unfold dual_classes in Hc. cbn [lookup] in Hc.
        repeat (match type of Hc with (if ?b then _ else _) = _ => destruct b end; [injection Hc as <-; repeat split; reflexivity|]). discriminate. }
      destruct D as (D1 & D2 & D3). rewrite D1, D2, D3 in Hr. destruct (smem cl readable_duals); [|discriminate]. unfold restore_dual in Hr.
      destruct (restore_form show mesh_ok space_ok form_ok els find rname st p) as [[s1 x]|] eqn:H1; [|discriminate].
      destruct (dual_class_of (r_ID x)); [|discriminate]. destruct (hybrid (r_ID x) (r_kw x)); [|discriminate]. injection Hr as <- <-.
      destruct (EF _ _ _ _ Hp H1). destruct I1 as [<-|[<-|[]]]; assumption.
  Qed.
End P.
