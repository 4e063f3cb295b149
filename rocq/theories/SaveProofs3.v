From Coq Require Import String Ascii List Arith ZArith Qcanon Bool Lia.
From Verif Require Import Prelude AssembleModel SpacingModel GatherModel MeshModel MeshSpec MeshMapModel MeshMapSpec CochainModel CochainProofs3 CochainProofs6 SaveModel SaveSpec SaveProofs SaveProofs2.
Import ListNotations.
Local Open Scope nat_scope.
Local Open Scope list_scope.

(** ** names of files *)
Lemma leqb_eq s t : leqb s t = true <-> s = t.
Proof. unfold leqb. destruct (list_eq_dec ascii_dec s t); split; congruence. Qed.
Lemma add_mi_rep s : exists b, add_mi s = b ++ mi /\ (s = b \/ s = b ++ mi).
Proof.
  unfold add_mi. destruct (leqb (tail3 s) mi) eqn:E.
  - apply leqb_eq in E. exists (firstn (length s - 3) s). unfold tail3 in E.
    assert (s = firstn (length s - 3) s ++ mi) as X by (rewrite <- E; symmetry; apply firstn_skipn). split; [exact X|right; exact X].
  - exists s. split; [reflexivity|left; reflexivity].
Qed.
Lemma count_app s t : count_dots (s ++ t) = count_dots s + count_dots t.
Proof. unfold count_dots. rewrite filter_app, app_length. reflexivity. Qed.
Lemma count0 s : count_dots s = 0 <-> ~ In dot s.
Proof.
  unfold count_dots. induction s as [|c s IH]; [split; [intros _ []|reflexivity]|]. cbn [filter]. destruct (Ascii.eqb_spec dot c) as [<-|N].
  - cbn. split; [discriminate|]. intros H. exfalso. apply H. left. reflexivity.
  - rewrite IH. split; intros H; [intros [X|X]; [congruence|exact (H X)]|intros X; apply H; right; exact X].
Qed.
Lemma count_mi : count_dots mi = 1.
Proof. reflexivity. Qed.
Lemma file_name s t : save_name s = Some t -> (read_name s = t <-> exists b, ~ In dot b /\ (s = b \/ s = b ++ mi)).
Proof.
  unfold save_name, read_name. destruct (existsb _ s); [discriminate|]. destruct (negb (length s <=? 64)); [discriminate|]. cbv zeta.
  destruct (add_mi_rep s) as (b & Eb & Hs). rewrite Eb. rewrite count_app, count_mi. intros H.
  assert (U : forall b', (s = b' \/ s = b' ++ mi) -> ~ In dot b' -> b' = b).
  { intros b' [X|X] N.
    - destruct Hs as [Y|Y]; [congruence|]. exfalso. apply N. rewrite <- X, Y. apply in_or_app. right. left. reflexivity.
    - destruct Hs as [Y|Y].
      + exfalso. rewrite <- Y, X in Eb. unfold add_mi in Eb. assert (tail3 (b' ++ mi) = mi) as Z.
        { unfold tail3. rewrite app_length. replace (length b' + length mi - 3) with (length b') by (cbn; lia). rewrite skipn_app, skipn_all, Nat.sub_diag. reflexivity. }
        rewrite (proj2 (leqb_eq _ _) Z) in Eb. apply (f_equal (@length _)) in Eb. rewrite !app_length in Eb. cbn in Eb. lia.
      + apply (app_inv_tail mi). congruence. }
  destruct (1 <? count_dots b + 1) eqn:E.
  - apply Nat.ltb_lt in E. set (r := map (fun c => if Ascii.eqb c dot then "_"%char else c)) in *.
    assert (firstn (length (r (b ++ mi)) - 3) (r (b ++ mi)) = r b) as X.
    { unfold r. rewrite map_length, app_length, map_app. replace (length b + length mi - 3) with (length b) by (cbn; lia).
      rewrite firstn_app, map_length, Nat.sub_diag, firstn_all2 by (rewrite map_length; lia). cbn. apply app_nil_r. }
    rewrite X in H. assert (t = r b ++ mi) as ->. { destruct (_ && _ && _) in H; [congruence|discriminate]. }
    split.
    + intros Y. exfalso. apply app_inv_tail in Y. assert (count_dots b = 0) as Z; [|lia]. rewrite Y. apply count0. unfold r. intros I. apply in_map_iff in I as (c & Hc & Ic). clear Ic.
      destruct (Ascii.eqb_spec c dot) as [Z|N]; [discriminate|congruence].
    + intros (b' & N & Y). exfalso. rewrite (U b' Y N) in N. apply count0 in N. lia.
  - apply Nat.ltb_ge in E. assert (t = b ++ mi) as ->. { destruct (_ && _ && _) in H; [congruence|discriminate]. }
    split; [intros _|reflexivity]. exists b. split; [apply count0; lia|exact Hs].
Qed.

Section P.
  Variable show : dict -> string.
  Variables mesh_ok space_ok : dict -> bool.
  Variables form_ok hybrid : string -> dict -> bool.
  Variable form_name : string -> dict -> string.
  Variable els : dict -> list nat.
  Variable find : dict -> nat -> option (nat * list nat).
  Variable rname : dict -> nat -> string.
  Notation rd := (read show mesh_ok space_ok form_ok hybrid form_name els find rname).

  Lemma restore_mesh1 st l : restore show mesh_ok space_ok form_ok hybrid form_name els find rname st (mkEntry "_3dCSCG_Mesh" (PRef l)) =
    option_map (fun x => (fst x, RMesh (snd x))) (restore_mesh show mesh_ok st l).
  Proof. reflexivity. Qed.
  (** two meshes with the same text *)
  Lemma confused st l l' : st_mesh st = None -> is_mesh (st_heap st l) -> mesh_ok (st_heap st l) = true -> l <> l' ->
    show (st_heap st l) = show (st_heap st l') -> exists f st' b, save_list [Mesh l; Mesh l'] = Some f /\
    rd st f All = Some (st', Objects [RMesh b; RMesh b]) /\ b_par b = st_heap st l.
  Proof.
    intros C M Ok N E. eexists _, _, _. split; [reflexivity|]. unfold read. cbn [contents forallb mask repeat combine read_loop length save1 saving_info map andb].
    rewrite restore_mesh1. unfold restore_mesh. rewrite C. cbn [cached]. rewrite (pop_mesh_ok _ M), Ok. cbn [option_map fst snd].
    rewrite restore_mesh1. unfold restore_mesh. cbn [st_mesh st_heap cached]. rewrite hset_other by congruence. rewrite <- E, String.eqb_refl. cbn. split; reflexivity.
  Qed.
  (** a mesh, another one, the first again: two objects of the first *)
  Lemma doubled st l1 l2 l3 : st_mesh st = None -> is_mesh (st_heap st l1) -> is_mesh (st_heap st l2) -> faithful show ->
    mesh_ok (st_heap st l1) = true -> mesh_ok (st_heap st l2) = true -> NoDup [l1; l2; l3] -> st_heap st l1 <> st_heap st l2 -> st_heap st l3 = st_heap st l1 ->
    exists f st' b1 b2 b3, save_list [Mesh l1; Mesh l2; Mesh l3] = Some f /\ rd st f All = Some (st', Objects [RMesh b1; RMesh b2; RMesh b3]) /\
      b_par b1 = b_par b3 /\ b_id b1 <> b_id b3.
  Proof.
    intros C M1 M2 [F _] O1 O2 ND Ne E3. apply NoDup_cons_iff in ND as [N1 ND]. apply NoDup_cons_iff in ND as [N2 _].
    assert (l2 <> l1 /\ l3 <> l1 /\ l3 <> l2) as (D1 & D2 & D3) by (repeat split; intros ->; cbn in *; tauto).
    eexists _, _, _, _, _. split; [reflexivity|]. unfold read. cbn [contents forallb mask repeat combine read_loop length save1 saving_info map andb].
    rewrite restore_mesh1. unfold restore_mesh. rewrite C. cbn [cached]. rewrite (pop_mesh_ok _ M1), O1. cbn [option_map fst snd].
    rewrite restore_mesh1. unfold restore_mesh. cbn [st_mesh st_heap cached st_next]. rewrite hset_other by congruence.
    destruct (String.eqb_spec (show (st_heap st l2)) (show (st_heap st l1))) as [X|_]; [exfalso; apply Ne; exact (F _ _ M1 M2 (eq_sym X))|].
    rewrite (pop_mesh_ok _ M2), O2. cbn [option_map fst snd]. rewrite restore_mesh1. unfold restore_mesh. cbn [st_mesh st_heap cached st_next].
    rewrite !hset_other by congruence. rewrite E3.
    destruct (String.eqb_spec (show (st_heap st l1)) (show (st_heap st l2))) as [X|_]; [exfalso; apply Ne; exact (F _ _ M1 M2 X)|].
    rewrite (pop_mesh_ok _ M1), O1. cbn. split; [reflexivity|]. split; [reflexivity|]. cbn. lia.
  Qed.
  (** forms that can be saved and not read *)
  Lemma unreadable st ri f c : In (f_ID f) ["1-e"; "0-lt"; "1-lt"; "2-lt"]%string -> f_rw f = Some c -> exists fl, save_one (Form f) = Some fl /\
    (rd st fl ri = None \/ ri = Single 0 \/ ri = Each [0%Z]).
  Proof.
    intros I E. unfold save_one. cbn [save1]. unfold form_params. rewrite E. cbn [option_map].
    destruct (class_of (f_ID f)) as [cl|] eqn:Hc; [|cbn in I; repeat (destruct I as [X|I]; [rewrite <- X in Hc; discriminate|]); contradiction].
    exists (One (mkEntry cl (PForm "_3dCSCG_Form" (f_ID f) (f_mp f) (f_sp f) (f_kw f) (RegionWise c)))). split; [reflexivity|].
    assert (R : restore show mesh_ok space_ok form_ok hybrid form_name els find rname st (mkEntry cl (PForm "_3dCSCG_Form" (f_ID f) (f_mp f) (f_sp f) (f_kw f) (RegionWise c))) = None).
    { cbn in I. repeat (destruct I as [X|I]; [rewrite <- X in Hc |- *; injection Hc as <-; reflexivity|]). contradiction. }
    unfold read. cbn [contents length]. destruct (mask ri 1) as [m|] eqn:Hm; [|left; reflexivity].
    assert (m = [true] \/ (m = [false] /\ (ri = Single 0 \/ ri = Each [0%Z]))) as [->|[-> X]].
    { assert (Y : forall z : Z, (if (length [z] =? 1) && forallb (fun z => (z =? 0)%Z || (z =? 1)%Z) [z] then Some (map (fun z => (z =? 1)%Z) [z]) else None) = Some m ->
        m = [true] \/ m = [false] /\ z = 0%Z).
      { intros z. cbn. destruct (z =? 0)%Z eqn:E0.
        - apply Z.eqb_eq in E0. subst z. cbn. intros H. injection H as <-. tauto.
        - destruct (z =? 1)%Z; cbn; [|discriminate]. intros H. injection H as <-. left. reflexivity. }
      destruct ri as [|z|[|z [|z' zs]]]; cbn [mask] in Hm.
      - injection Hm as <-. left. reflexivity.
      - destruct (Y z Hm) as [A|[A B]]; [left; exact A|right; split; [exact A|left; congruence]].
      - discriminate.
      - destruct (Y z Hm) as [A|[A B]]; [left; exact A|right; split; [exact A|right; congruence]].
      - discriminate. }
    - left. cbn [combine read_loop]. rewrite R. reflexivity.
    - right. exact X.
  Qed.
  (** the name of a dual *)
  Lemma dual_name h st f : faithful show -> exists_in mesh_ok space_ok form_ok hybrid els find rname h (dual_of form_name h f) ->
    caches_ok show st -> (forall l, st_heap st l = h l) ->
    exists fl st' cls r name, save_one (dual_of form_name h f) = Some fl /\ rd st fl All = Some (st', Object (RDual cls name r)) /\ dual_of form_name h f = Dual name f.
  Proof.
    intros F E C H. destruct (step show mesh_ok space_ok form_ok hybrid form_name els find rname h st _ F C E) as (e & st' & r & Hs & Hr & Sr & _); [intros; apply H|].
    unfold dual_of in Sr. cbn [same] in Sr. destruct r as [| | | |cls name r]; try contradiction. exists (One e), st', cls, r, name.
    unfold save_one. rewrite Hs. split; [reflexivity|]. unfold read. cbn [contents mask length repeat combine read_loop]. rewrite Hr. split; [reflexivity|].
    destruct Sr as (_ & -> & _). reflexivity.
  Qed.
  Lemma dual_renamed h st f nm others : faithful show -> (forall ID kw s, lookup String.eqb "name"%string kw = Some (Text s) -> form_name ID kw = s) ->
    h (f_kw f) = prime_kwargs nm others -> exists_in mesh_ok space_ok form_ok hybrid els find rname h (Dual nm f) ->
    caches_ok show st -> (forall l, st_heap st l = h l) ->
    exists fl st' cls r name, save_one (Dual nm f) = Some fl /\ rd st fl All = Some (st', Object (RDual cls name r)) /\ name = String.append "AD_PRIME_" nm /\ name <> nm.
  Proof.
    intros F Nm Kw E C H. destruct (step show mesh_ok space_ok form_ok hybrid form_name els find rname h st _ F C E) as (e & st' & r & Hs & Hr & Sr & _); [intros; apply H|].
    cbn [same] in Sr. destruct r as [| | | |cls name r]; try contradiction. exists (One e), st', cls, r, name.
    unfold save_one. rewrite Hs. split; [reflexivity|]. unfold read. cbn [contents mask length repeat combine read_loop]. rewrite Hr. split; [reflexivity|].
    destruct Sr as (_ & -> & _). rewrite (Nm _ _ (String.append "PRIME_" nm)) by (rewrite Kw; reflexivity). split; [reflexivity|].
    intros X. apply (f_equal String.length) in X. cbn in X. lia.
  Qed.
  (** old files *)
  Lemma old_mesh st l ID dom lay x : st_mesh st = None ->
    st_heap st l = [("type", Text "_3dCSCG_Mesh"); ("ID", ID); ("domain_parameters", dom); ("element_layout", lay); ("element_distribution_method", x)]%string ->
    mesh_ok (mesh_dict ID dom lay (Text "debug")) = true ->
    exists st' b, rd st (One (mkEntry "_3dCSCG_Mesh" (PRef l))) All = Some (st', Object (RMesh b)) /\ b_par b = mesh_dict ID dom lay (Text "debug").
  Proof.
    intros C E Ok. eexists _, _. unfold read. cbn [contents mask length repeat combine read_loop]. rewrite restore_mesh1. unfold restore_mesh. rewrite C. cbn [cached]. rewrite E.
    set (d := [_; _; _; _; _]). change (pop_mesh d) with (Some (mesh_dict ID dom lay (Text "debug"))). cbv iota beta. rewrite Ok. cbn. split; reflexivity.
  Qed.
End P.

(** a list of one object and the object: the same is read *)
Lemma single_same show mesh_ok space_ok form_ok hybrid form_name els find rname h o : exists_in mesh_ok space_ok form_ok hybrid els find rname h o ->
  exists f f', save_list [o] = Some f /\ save_one o = Some f' /\ f <> f' /\ forall st ri,
    read show mesh_ok space_ok form_ok hybrid form_name els find rname st f ri = read show mesh_ok space_ok form_ok hybrid form_name els find rname st f' ri.
Proof.
  intros E. destruct (saved _ _ _ _ _ _ _ _ _ E) as [e He]. unfold save_list, save_one. cbn [map all_some]. rewrite He. cbn [option_map].
  eexists _, _. split; [reflexivity|]. split; [reflexivity|]. split; [discriminate|]. intros st ri. unfold read. cbn [contents].
  rewrite (infos_ok [o] : forallb _ [saving_info o] = true). reflexivity.
Qed.
