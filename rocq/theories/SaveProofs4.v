(** Proofs about SaveModel: the cochains of a form on all cores. *)
From Coq Require Import String List Arith ZArith Qcanon Bool Lia.
From Verif Require Import Prelude SpaceModel AssembleModel SpacingModel GatherModel MeshModel MeshSpec MeshMapModel MeshMapSpec MeshProofs CochainModel CochainSpec CochainProofs3 CochainProofs5 SaveModel SaveSpec SaveProofs SaveProofs2.
Import ListNotations.
Local Open Scope nat_scope.
Local Open Scope list_scope.

Lemma Forall2_nth {A B} (R : A -> B -> Prop) l l' k a : Forall2 R l l' -> nth_error l k = Some a -> exists b, nth_error l' k = Some b /\ R a b.
Proof.
  intros H. revert k. induction H as [|x y l l' Hx H IH]; intros [|k] E; try discriminate.
  - injection E as <-. exists y. split; [reflexivity|exact Hx].
  - exact (IH k E).
Qed.
Theorem form_cochain : forall show mesh_ok space_ok form_ok hybrid form_name (els : nat -> dict -> list nat) find rname h f
    lays g sc g' sc' SIZE SIZE' rs rs' locs,
  faithful show -> is_mesh (h (f_mp f)) -> mesh_ok (h (f_mp f)) = true -> is_space (h (f_sp f)) -> space_ok (h (f_sp f)) = true ->
  ~ In "is_hybrid"%string (map fst (h (f_kw f))) -> form_ok (f_ID f) (h (f_kw f)) = true -> In (f_ID f) form_IDs -> f_kw f <> f_mp f -> f_kw f <> f_sp f ->
  let p := h (f_mp f) in (forall a b : nat, rname p a = rname p b -> a = b) ->
  Forall (fun lay => length lay = 3 /\ Forall (fun n => 1 <= n) lay) lays ->
  (forall r lay, nth_error lays r = Some lay -> lens_ok (prodl lay) (sc r) /\ lens_ok (prodl lay) (sc' r)) ->
  let num r := option_map fst (region_numbering g lays sc r) in let num' r := option_map fst (region_numbering g' lays sc' r) in
  let N := sum (map prodl lays) in partition SIZE N rs -> partition SIZE' N rs' -> map (map fst) locs = rs ->
  (* saved where elements are numbered by num and distributed as rs, read where they are numbered by num' and distributed as rs' *)
  f_rw f = group (rname p) (find_element num lays) N locs -> find p = find_element num' lays ->
  (forall k l, nth_error rs' k = Some l -> els k p = l) ->
  exists fl locs', save_one (Form f) = Some fl /\ map (map fst) locs' = rs' /\
    (forall e e' r idx c, located num lays e r idx -> located num' lays e' r idx -> In (e, c) (concat locs) -> In (e', c) (concat locs')) /\
    forall k loc st, nth_error locs' k = Some loc -> caches_ok show st -> (forall l, st_heap st l = h l) ->
      exists st' r, read show mesh_ok space_ok form_ok hybrid form_name (els k) find rname st fl All = Some (st', Object (RForm r)) /\ r_local r = Some loc.
Proof.
  intros show mesh_ok space_ok form_ok hybrid form_name els find rname h f lays g sc g' sc' SIZE SIZE' rs rs' locs F M Mo S So Kw Fo I K1 K2 p RI H3 HL num num' N P P' EL Erw Ef Ee.
  destruct (mesh_regrouped (rname p) lays g sc g' sc' SIZE SIZE' rs rs' locs RI H3 HL P P' EL) as (rw & locs' & Hg & Hu & Hm & Hc).
  fold num in Hg, Hc. fold num' in Hu, Hc. fold N in Hg. rewrite Hg in Erw.
  destruct (form_class (f_ID f) I) as (cl & Ecl & _).
  exists (One (mkEntry cl (PForm "_3dCSCG_Form" (f_ID f) (f_mp f) (f_sp f) (f_kw f) (RegionWise rw)))), locs'.
  assert (Hs : save_one (Form f) = Some (One (mkEntry cl (PForm "_3dCSCG_Form" (f_ID f) (f_mp f) (f_sp f) (f_kw f) (RegionWise rw))))).
  { unfold save_one. cbn [save1]. unfold form_params. rewrite Ecl, Erw. reflexivity. }
  split; [exact Hs|]. split; [exact Hm|]. split; [exact Hc|]. intros k loc st Hk C Hh.
  assert (Hl : exists l, nth_error rs' k = Some l).
  { destruct (nth_error rs' k) as [l|] eqn:X; [exists l; reflexivity|]. apply nth_error_None in X. assert (k < length locs') by (apply (proj1 (nth_error_Some locs' k)); intros Y; assert (Z := eq_trans (eq_sym Y) Hk); discriminate).
    exfalso. assert (L : length rs' = length locs') by (rewrite <- Hm; apply map_length). rewrite L in X. exact (Nat.lt_irrefl k (Nat.lt_le_trans _ _ _ H X)). }
  destruct Hl as [l Hl]. destruct (Forall2_nth _ _ _ _ _ Hu Hl) as (loc' & Hk' & Hu'). assert (Z := eq_trans (eq_sym Hk) Hk'). injection Z as <-. clear Hk'.
  assert (E : exists_in mesh_ok space_ok form_ok hybrid (els k) find rname h (Form f)).
  { split; [exact I|]. repeat split; try assumption. exists rw, loc. split; [exact Erw|]. fold p. rewrite Ef, (Ee k l Hl). exact Hu'. }
  destruct (one_ok show mesh_ok space_ok form_ok hybrid form_name (els k) find rname h (Form f) st F E) as (fl & st' & r & Hs' & Hr & Sr & _); try assumption.
  { cbn. intros a [<-|[<-|[]]] [X|[]]; congruence. }
  rewrite Hs in Hs'. injection Hs' as <-. destruct r as [| | |r|]; try contradiction. exists st', r. split; [exact Hr|].
  destruct Sr as (_ & _ & _ & _ & c & loc' & Ec & Eu & El). fold p in Eu. rewrite Erw in Ec. injection Ec as <-. rewrite Ef, (Ee k l Hl) in Eu. rewrite El. exact (eq_trans (eq_sym Eu) Hu').
Qed.

(** ** forms of old files *)
Lemma lookup_app {V} (k : string) (d d' : list (string * V)) : lookup String.eqb k (d ++ d') = match lookup String.eqb k d with Some v => Some v | None => lookup String.eqb k d' end.
Proof. induction d as [|[k' v] d IH]; [reflexivity|]. cbn. destruct (String.eqb k k'); [reflexivity|exact IH]. Qed.
Lemma lookup_ddrop k k' d : lookup String.eqb k (ddrop k' d) = if String.eqb k' k then None else lookup String.eqb k d.
Proof.
  induction d as [|[k0 v] d IH]; [cbn; destruct (String.eqb k' k); reflexivity|]. unfold ddrop in *. cbn [filter fst lookup].
  destruct (String.eqb_spec k' k0) as [->|N]; cbn [negb lookup].
  - rewrite IH. rewrite (String.eqb_sym k k0). destruct (String.eqb k0 k); reflexivity.
  - destruct (String.eqb_spec k k0) as [->|N']; [destruct (String.eqb_spec k' k0); [congruence|reflexivity]|exact IH].
Qed.
Lemma rename_lookup d v k : lookup String.eqb "is_hybrid"%string d = Some v ->
  lookup String.eqb k (rename d) = if String.eqb k "hybrid" then Some v else if String.eqb k "is_hybrid" then None else lookup String.eqb k d.
Proof.
  intros H. unfold rename. rewrite H, lookup_app, !lookup_ddrop. cbn [lookup]. rewrite (String.eqb_sym "hybrid" k), (String.eqb_sym "is_hybrid" k).
  destruct (String.eqb k "hybrid"); [reflexivity|]. destruct (String.eqb k "is_hybrid"); [reflexivity|]. destruct (lookup String.eqb k d); reflexivity.
Qed.
Theorem old_form : forall show mesh_ok space_ok form_ok hybrid form_name els find rname h st ID mp sp kw c v,
  faithful show -> caches_ok show st -> (forall l, st_heap st l = h l) -> is_mesh (h mp) -> mesh_ok (h mp) = true -> is_space (h sp) -> space_ok (h sp) = true ->
  kw <> mp -> kw <> sp -> In ID form_IDs -> lookup String.eqb "is_hybrid"%string (h kw) = Some v -> (forall d, form_ok ID d = true) ->
  c <> [] -> (forall i, In i (els (h mp)) -> exists x, lookup Nat.eqb i c = Some x) ->
  exists cls st' r loc, class_of ID = Some cls /\
    read show mesh_ok space_ok form_ok hybrid form_name els find rname st (One (mkEntry cls (PForm "_3dCSCG_Form" ID mp sp kw (OldLocal c)))) All = Some (st', Object (RForm r)) /\
    r_ID r = ID /\ b_par (r_mesh r) = h mp /\ b_par (r_space r) = h sp /\
    r_local r = Some loc /\ map fst loc = els (h mp) /\ (forall i x, In (i, x) loc -> lookup Nat.eqb i c = Some x) /\
    forall k, lookup String.eqb k (r_kw r) = if String.eqb k "hybrid" then Some v else if String.eqb k "is_hybrid" then None else lookup String.eqb k (h kw).
Proof.
  intros show mesh_ok space_ok form_ok hybrid form_name els find rname h st ID mp sp kw c v F C H M Mo S So K1 K2 I Hv Fo Nc Hc.
  destruct (form_class ID I) as (cls & Ecl & Rd & N1 & N2). exists cls.
  set (loc := map (fun i => (i, match lookup Nat.eqb i c with Some x => x | None => [] end)) (els (h mp))).
  assert (El : all_some (map (fun i => option_map (pair i) (lookup Nat.eqb i c)) (els (h mp))) = Some loc).
  { unfold loc. apply all_some_map. intros i Hi. destruct (Hc i Hi) as [x ->]. reflexivity. }
  unfold read. cbn [contents mask length repeat combine read_loop]. unfold restore. cbn [e_obj e_par]. rewrite N1, N2, Rd. cbn [restore_form].
  change (String.eqb "_3dCSCG_Form" "_3dCSCG_Form") with true. cbv iota. rewrite H.
  set (st0 := forget_heap st (hset (st_heap st) kw (rename (h kw)))).
  assert (K0 : forall l, l <> kw -> st_heap st0 l = h l). { intros l X. cbn. rewrite hset_other by exact X. apply H. }
  destruct (space_step show space_ok h st0 sp F C S So) as (st1 & s & -> & Ps & C1 & Kp1 & _ & _ & _); [apply K0; congruence|].
  assert (Hne : mp <> sp) by (intros X; rewrite X in M; exact (mesh_not_space _ M S)).
  destruct (mesh_step show mesh_ok h st1 mp F C1 M Mo) as (st2 & m & -> & Pm & C2 & _).
  { rewrite Kp1 by (intros [X|[]]; congruence). apply K0. congruence. }
  rewrite Ecl, Fo. unfold give. rewrite Pm, El. destruct c as [|c0 c']; [congruence|]. cbn [option_map fst snd pack].
  eexists st2, _, loc. split; [reflexivity|]. split; [reflexivity|]. cbn [r_ID r_mesh r_space r_local r_kw]. repeat split; try assumption.
  - unfold loc. rewrite map_map. apply map_id.
  - intros i x Hx. unfold loc in Hx. apply in_map_iff in Hx as (j & Hj & Hi). destruct (Hc j Hi) as [y Hy]. rewrite Hy in Hj. congruence.
  - intros k. apply rename_lookup. exact Hv.
Qed.
