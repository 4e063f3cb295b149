(** Proofs about NhtModel: gathering matrices of the trace form from the renumbered dofs. *)
From Coq Require Import List Arith ZArith Bool Lia Permutation.
From Verif Require Import Prelude PreludeProofs RingSum AssembleModel AssembleSpec AssembleProofs SpaceModel SpaceSpec SpaceProofs SpaceProofs2 MeshMapModel MeshMapProofs2 TraceModel TraceSpec TraceProofs NumModel NumSpec NumProofs NumProofs4 NumProofs5 NhtModel NhtSpec NhtProofs NhtProofs2 NhtProofs3.
Import ListNotations.

Lemma sets_ok {V} (ps : list (nat * V)) : forall d, NoDup (map fst d) ->
  let d' := fold_left (fun d tr => dset Nat.eqb d (fst tr) (snd tr)) ps d in
  NoDup (map fst d') /\ (forall t, In t (map fst d') <-> In t (map fst d) \/ In t (map fst ps)) /\ (forall t v, In (t, v) d' -> In (t, v) d \/ In (t, v) ps).
Proof.
  induction ps as [|[k v] ps IH]; intros d ND; cbn [fold_left fst snd].
  - split; [exact ND|]. split; [intros t; cbn; tauto|auto].
  - destruct (IH (dset Nat.eqb d k v) (dset_NoDup Nat.eqb Nat.eqb_eq d k v ND)) as (A & B & C). split; [exact A|]. split.
    + intros t. rewrite B. cbn [map fst In]. rewrite !(dget_keys Nat.eqb Nat.eqb_eq d). assert (X := dget_keys Nat.eqb Nat.eqb_eq (dset Nat.eqb d k v) t).
      rewrite X, (dget_dset Nat.eqb Nat.eqb_eq). destruct (Nat.eqb_spec k t) as [->|]; [split; eauto|]. split; [tauto|]. intros [?|[?|?]]; try tauto; contradiction.
    + intros t w H. apply C in H as [H|H]; [|right; right; exact H]. apply (dget_In Nat.eqb Nat.eqb_eq) in H; [|apply (dset_NoDup Nat.eqb Nat.eqb_eq); exact ND]. rewrite (dget_dset Nat.eqb Nat.eqb_eq) in H.
      destruct (Nat.eqb_spec k t) as [->|]; [injection H as ->; right; now left|left; apply (dget_In Nat.eqb Nat.eqb_eq) in H; assumption].
Qed.
Lemma side_surface p s x : In s sides3 -> on_side p s x = true -> on_surface p x = true.
Proof. intros Hs H. apply existsb_exists. eauto. Qed.
Lemma surface_side p x : on_surface p x = true -> exists s, In s sides3 /\ on_side p s x = true.
Proof. intros H. apply existsb_exists in H. exact H. Qed.

Section Assemble.
  Variables (p : list nat) (ts : list ctype).
  Let cs := cells p ts.
  Let side s := filter (on_side p s) cs.
  Variables (L : list (list Z)) (Nt : nat) (num : SpaceSpec.cell -> nat).
  Hypothesis EL : L = map (fun s => map (fun c => Z.of_nat (num c)) (side s)) sides3.
  Hypothesis Inum : forall c d, In c cs -> In d cs -> on_surface p c = true -> on_surface p d = true -> num c = num d -> c = d.
  Hypothesis Rnum : forall n, n < Nt <-> exists c, In c cs /\ on_surface p c = true /\ num c = n.
  Hypothesis Ne : forall s, In s sides3 -> exists x, In x cs /\ on_side p s x = true.
  Lemma Nt_pos : 0 < Nt.
  Proof. destruct (Ne (0, false)) as (x & Hx & O); [now left|]. assert (X : num x < Nt); [|lia]. apply Rnum. exists x. split; [exact Hx|]. split; [eapply side_surface; [|exact O]; now left|reflexivity]. Qed.
  Lemma L_numbers : numbers_0_to L (Z.of_nat Nt).
  Proof.
    split; [assert (X := Nt_pos); lia|]. split.
    - intros g Hg. rewrite EL in Hg. apply in_map_iff in Hg as (s & <- & Hs). destruct (Ne s Hs) as (x & Hx & O). assert (X : In x (side s)) by (apply filter_In; auto). destruct (side s); [destruct X|discriminate].
    - intros z. rewrite EL, in_concat. split.
      + intros (l & Hl & Hz). apply in_map_iff in Hl as (s & <- & Hs). apply in_map_iff in Hz as (c & <- & Hc). apply filter_In in Hc as [Hc O]. assert (X : num c < Nt) by (apply Rnum; exists c; eauto using side_surface). lia.
      + intros Hz. assert (X : Z.to_nat z < Nt) by lia. apply Rnum in X as (c & Hc & O & E). apply surface_side in O as (s & Hs & O).
        eexists. split; [apply in_map; exact Hs|]. apply in_map_iff. exists c. split; [lia|apply filter_In; auto].
  Qed.
  Lemma assemble_ok (val : SpaceSpec.cell -> Z) :
    exists g, VectorAssembler nat Nat.eqb ZR (combine (seq 0 (length L)) L) Replace (combine (seq 0 6) (map (fun s => map val (side s)) sides3)) = Some g /\
      length g = Nt /\ forall x, In x cs -> on_surface p x = true -> nth_error g (num x) = Some (val x).
  Proof.
    assert (LN := L_numbers). assert (L6 : length L = 6) by (rewrite EL, map_length; reflexivity). rewrite L6.
    destruct (@vector_replace nat Nat.eqb ZR (combine (seq 0 6) L) (combine (seq 0 6) (map (fun s => map val (side s)) sides3)) (Z.of_nat Nt)) as (g & E & Lg & H).
    - replace (map snd (combine (seq 0 6) L)) with L; [exact LN|]. rewrite EL. reflexivity.
    - split; [rewrite EL; reflexivity|]. intros j l Hl. rewrite EL in Hl. cbn [sides3 map seq combine In] in Hl.
      repeat destruct Hl as [[= <- <-]|Hl]; try destruct Hl; (eexists; split; [reflexivity|rewrite !map_length; reflexivity]).
    - exists g. split; [exact E|]. rewrite Nat2Z.id in Lg, H. split; [exact Lg|]. intros x Hx O. destruct (H (num x)) as (w1 & z & w2 & Ew & _ & V); [apply Rnum; eauto|]. rewrite V. f_equal. change (car ZR) with Z in z.
      assert (X : In (Z.of_nat (num x), z) (@writes nat Nat.eqb ZR (combine (seq 0 6) L) (combine (seq 0 6) (map (fun s => map val (side s)) sides3)))) by (rewrite Ew; apply in_elt). clear Ew.
      assert (Y : exists s, In s sides3 /\ In (Z.of_nat (num x), z) (combine (map (fun c => Z.of_nat (num c)) (side s)) (map val (side s)))).
      { unfold writes in X. apply in_flat_map in X as ([j l] & Hl & X). cbn [fst snd] in X. rewrite EL in Hl. cbn [sides3 map seq combine In] in Hl.
        repeat destruct Hl as [[= <- <-]|Hl]; try destruct Hl; (eexists; split; [|exact X]; cbn; tauto). }
      destruct Y as (s & Hs & Y). apply In_nth_error in Y as (a & Y). rewrite nth_error_combine, !nth_error_map in Y. destruct (nth_error (side s) a) as [c|] eqn:Ec; [|discriminate]. cbn [option_map] in Y.
      assert (Q : num c = num x /\ val c = z) by (injection Y; intros; split; lia). destruct Q as [Q <-]. apply nth_error_In, filter_In in Ec as [Hc Oc]. f_equal. apply Inum; eauto using side_surface.
  Qed.
End Assemble.

Section Core.
  Variables (px py pz : nat) (k : nform).
  Let p := [px; py; pz].
  Hypothesis Fp : Forall (fun n => 1 <= n) p.
  Let ts := types k 3.
  Let cs := cells p ts.
  Let side s := filter (on_side p s) cs.
  Variables (L : list (list Z)) (Nt : nat) (num : SpaceSpec.cell -> nat).
  Hypothesis EL : L = map (fun s => map (fun c => Z.of_nat (num c)) (side s)) sides3.
  Hypothesis Inum : forall c d, In c cs -> In d cs -> on_surface p c = true -> on_surface p d = true -> num c = num d -> c = d.
  Hypothesis Rnum : forall n, n < Nt <-> exists c, In c cs /\ on_surface p c = true /\ num c = n.
  Variables (int : list nat).
  Hypothesis Hint : forall n, In n int <-> exists c, nth_error cs n = Some c /\ on_surface p c = false.
  Let surf := surface_of (length cs) int.
  Variables (K : nat) (gm : list (nat * list nat)) (Rc : list Z) (rho : nat -> nat) (tm : list (nat * list nat)).
  Hypothesis Lv : forall e v, In (e, v) gm -> length v = length cs /\ forall d, In d v -> d < K.
  Hypothesis LR : length Rc = K.
  Hypothesis HR : forall d, In d (S_ surf (map snd gm)) -> nth_error Rc d = Some (Z.of_nat (rho d)).
  Hypothesis Kt : map fst tm = map fst gm.
  Hypothesis Dk : NoDup (map fst gm).
  Hypothesis T6 : forall e row, In (e, row) tm -> length row = 6.
  Definition dof (v : list nat) (x : SpaceSpec.cell) : nat := rho (nth (SpaceProofs.pos cs x) v 0).
  Definition row (v : list nat) (s : nat * bool) : list Z := map (fun x => Z.of_nat (dof v x)) (side s).
  Definition rows (v : list nat) : list (list Z) := map (row v) sides3.
  Definition tes_of (e : nat) : list nat := match dget Nat.eqb tm e with Some t => t | None => [] end.
  Definition good (v : list nat) (g : list Z) : Prop := length g = Nt /\ forall x, In x cs -> on_surface p x = true -> nth_error g (num x) = Some (Z.of_nat (dof v x)).
  Lemma values_ok e v s : In (e, v) gm -> In s sides3 -> side_values k p Rc v s = Some (row v s).
  Proof.
    intros Hv Hs. unfold side_values. rewrite (np_take_ok Rc 0%Z v) by (intros i Hi; rewrite LR; apply (proj2 (Lv e v Hv)); exact Hi).
    assert (X : local_side k p s = Some (map (SpaceProofs.pos cs) (side s))) by exact (local_side_ok px py pz Fp k s Hs). rewrite X. rewrite (np_take_ok _ 0%Z).
    - rewrite map_map. f_equal. apply map_ext_in. intros x Hx. apply filter_In in Hx as [Hx O]. assert (B : SpaceProofs.pos cs x < length v) by (rewrite (proj1 (Lv e v Hv)); apply pos_lt; exact Hx).
      rewrite (nth_indep _ 0%Z (nth 0 Rc 0%Z)), (map_nth (fun i => nth i Rc 0%Z) v 0) by (rewrite map_length; exact B). unfold dof. apply nth_error_nth. apply HR.
      unfold S_. apply in_flat_map. exists v. split; [apply in_map_iff; exists (e, v); auto|]. unfold sub. apply in_map_iff. exists (SpaceProofs.pos cs x). split; [reflexivity|].
      apply (Hsurf p ts int Hint). exists x. split; [apply pos_nth; exact Hx|]. eapply side_surface; eassumption.
    - intros i Hi. rewrite map_length, (proj1 (Lv e v Hv)). apply in_map_iff in Hi as (x & <- & Hx). apply filter_In in Hx as [Hx _]. apply pos_lt. exact Hx.
  Qed.
  Lemma tes_ok e v : In (e, v) gm -> exists tes, dget Nat.eqb tm e = Some tes /\ tes_of e = tes /\ length tes = 6 /\ In (e, tes) tm.
  Proof.
    intros Hv. assert (X : In e (map fst tm)) by (rewrite Kt; apply (in_map fst) in Hv; exact Hv). apply (dget_keys Nat.eqb Nat.eqb_eq) in X as (tes & X). exists tes. split; [exact X|]. unfold tes_of. rewrite X. split; [reflexivity|].
    apply (dget_In Nat.eqb Nat.eqb_eq) in X; [|rewrite Kt; exact Dk]. split; [eapply T6; exact X|exact X].
  Qed.
  Lemma one_restrict e v tew g0 all : In (e, v) gm -> exists g, good v g /\
    restrict_one k p L Rc tm (Some (tew, g0, all)) (e, v) = Some (fold_left (fun d tr => dset Nat.eqb d (fst tr) (snd tr)) (combine (tes_of e) (rows v)) tew, g0 ++ [(e, g)], all ++ concat (rows v)).
  Proof.
    intros Hv. destruct (tes_ok e v Hv) as (tes & E1 & E2 & E3 & _). rewrite E2. unfold restrict_one. cbn [fst snd]. rewrite E1.
    assert (E : SpaceModel.all_some (map (fun ts => side_values k p Rc v (snd ts)) (combine tes NSWEBF)) = Some (rows v)).
    { apply all_some_intro. unfold rows. change sides3 with NSWEBF. assert (Ln : length tes = length NSWEBF) by exact E3. assert (Hs : forall s, In s NSWEBF -> In s sides3) by (intros s H; exact H).
      revert tes E1 E2 E3 Ln. generalize NSWEBF as l, Hs. intros l Hl tes _ _ _. revert tes. induction l as [|s l IH]; intros [|t tes] Ln; try discriminate; cbn [combine map]; [constructor|]. constructor; [cbn [snd]; apply (values_ok e v s Hv); apply Hl; now left|].
      apply IH; [intros s' Hs'; apply Hl; now right|cbn in Ln; lia]. }
    rewrite E. destruct (assemble_ok p ts L Nt num EL Inum Rnum (side_cell px py pz Fp k) (fun x => Z.of_nat (dof v x))) as (g & A & Lg & V).
    exists g. split; [split; assumption|]. change (length (rows v)) with 6. unfold rows, row, side, cs. rewrite A. reflexivity.
  Qed.
  Lemma fold_restrict evs : (forall ev, In ev evs -> In ev gm) -> forall tew g0 all, exists gs, Forall2 (fun ev eg => fst eg = fst ev /\ good (snd ev) (snd eg)) evs gs /\
    fold_left (restrict_one k p L Rc tm) evs (Some (tew, g0, all)) =
      Some (fold_left (fun d tr => dset Nat.eqb d (fst tr) (snd tr)) (flat_map (fun ev => combine (tes_of (fst ev)) (rows (snd ev))) evs) tew, g0 ++ gs, all ++ flat_map (fun ev => concat (rows (snd ev))) evs).
  Proof.
    induction evs as [|[e v] evs IH]; intros Hs tew g0 all.
    - exists []. split; [constructor|]. cbn. rewrite !app_nil_r. reflexivity.
    - destruct (one_restrict e v tew g0 all) as (g & Hg & E); [apply Hs; now left|]. cbn [fold_left]. rewrite E.
      destruct (IH (fun ev H => Hs ev (or_intror H)) (fold_left (fun d tr => dset Nat.eqb d (fst tr) (snd tr)) (combine (tes_of e) (rows v)) tew) (g0 ++ [(e, g)]) (all ++ concat (rows v))) as (gs & F & E').
      exists ((e, g) :: gs). split; [constructor; [split; [reflexivity|exact Hg]|exact F]|]. rewrite E'. cbn [flat_map fst snd]. rewrite fold_left_app, <- !app_assoc. reflexivity.
  Qed.
  Lemma core_ok : exists gs tew all, restrict_core k p L ((Rc, gm), tm) = Some (gs, tew, all) /\
    Forall2 (fun ev eg => fst eg = fst ev /\ good (snd ev) (snd eg)) gm gs /\
    (forall z, In z all <-> exists e v x, In (e, v) gm /\ In x cs /\ on_surface p x = true /\ z = Z.of_nat (dof v x)) /\
    NoDup (map fst tew) /\ (forall t, In t (map fst tew) <-> exists e j, entry tm e j t) /\
    (forall t r, In (t, r) tew -> exists e v j s, In (e, v) gm /\ entry tm e j t /\ nth_error sides3 j = Some s /\ r = row v s).
  Proof.
    destruct (fold_restrict gm (fun ev H => H) [] [] []) as (gs & F & E). unfold restrict_core. rewrite E. cbn [app].
    set (all := flat_map (fun ev => concat (rows (snd ev))) gm). set (ps := flat_map (fun ev => combine (tes_of (fst ev)) (rows (snd ev))) gm).
    assert (HA : forall z, In z all <-> exists e v x, In (e, v) gm /\ In x cs /\ on_surface p x = true /\ z = Z.of_nat (dof v x)).
    { intros z. unfold all. rewrite in_flat_map. split.
      - intros ([e v] & Hv & H). cbn [snd] in H. apply in_concat in H as (l & Hl & H). unfold rows in Hl. apply in_map_iff in Hl as (s & <- & Hs). unfold row in H. apply in_map_iff in H as (x & <- & Hx). apply filter_In in Hx as [Hx O].
        exists e, v, x. eauto 6 using side_surface.
      - intros (e & v & x & Hv & Hx & O & ->). exists (e, v). split; [exact Hv|]. cbn [snd]. apply in_concat. apply surface_side in O as (s & Hs & O). exists (row v s). split; [apply in_map; exact Hs|]. apply in_map_iff. exists x. split; [reflexivity|]. apply filter_In. auto. }
    assert (X : existsb (Z.eqb (-1)) all = false).
    { destruct (existsb (Z.eqb (-1)) all) eqn:X; [|reflexivity]. apply existsb_exists in X as (z & Hz & Q). apply HA in Hz as (e & v & x & _ & _ & _ & ->). lia. }
    rewrite X. destruct (sets_ok ps [] (NoDup_nil _)) as (D1 & D2 & D3). eexists _, _, _. split; [reflexivity|]. split; [exact F|]. split; [exact HA|]. split; [exact D1|].
    assert (HPs : forall t r, In (t, r) ps <-> exists e v j s, In (e, v) gm /\ entry tm e j t /\ nth_error sides3 j = Some s /\ r = row v s).
    { intros t r. unfold ps. rewrite in_flat_map. split.
      - intros ([e v] & Hv & H). cbn [fst snd] in H. destruct (tes_ok e v Hv) as (tes & E1 & E2 & E3 & E4). rewrite E2 in H. apply In_nth_error in H as (j & H). rewrite nth_error_combine in H. unfold rows in H. rewrite nth_error_map in H.
        destruct (nth_error tes j) as [t'|] eqn:Et; [|discriminate]. destruct (nth_error sides3 j) as [s|] eqn:Es; [|discriminate]. cbn [option_map] in H. exists e, v, j, s. split; [exact Hv|]. injection H as <- <-. split; [exists tes; auto|auto].
      - intros (e & v & j & s & Hv & (tes & Ht & Hj) & Hs & ->). exists (e, v). split; [exact Hv|]. cbn [fst snd]. destruct (tes_ok e v Hv) as (tes' & E1 & E2 & E3 & E4). rewrite E2.
        assert (Q : tes' = tes) by (apply (dget_In Nat.eqb Nat.eqb_eq) in Ht; [congruence|rewrite Kt; exact Dk]). rewrite Q. apply (nth_error_In _ j). rewrite nth_error_combine, Hj. unfold rows. rewrite nth_error_map, Hs. reflexivity. }
    split.
    - intros t. rewrite D2. cbn [map In]. split.
      + intros [[]|H]. apply in_map_iff in H as ([t' r] & <- & H). apply HPs in H as (e & v & j & s & _ & H & _). eauto.
      + intros (e & j & H). right. assert (H' := H). destruct H' as (tes & Ht & Hj). assert (Hk : In e (map fst gm)) by (rewrite <- Kt; apply (in_map fst) in Ht; exact Ht). apply in_map_iff in Hk as ([e' v] & Ee & Hv). cbn [fst] in Ee. subst e'.
        destruct (nth_error sides3 j) as [s|] eqn:Es; [|apply nth_error_None in Es; assert (j < length tes) by (apply nth_error_Some; congruence); rewrite (T6 e tes Ht) in *; cbn in Es; lia].
        apply in_map_iff. exists (t, row v s). split; [reflexivity|]. apply HPs. exists e, v, j, s. auto.
    - intros t r H. apply D3 in H as [[]|H]. apply HPs. exact H.
  Qed.
  (** what the gathering matrix says *)
  Lemma dof_iff gs e x d : Forall2 (fun ev eg => fst eg = fst ev /\ good (snd ev) (snd eg)) gm gs ->
    (trace_dof p ts L gs e x d <-> exists v, In (e, v) gm /\ In x cs /\ on_surface p x = true /\ d = dof v x).
  Proof.
    intros F. split.
    - intros (g & j & s & l & a & i & Hg & Hs & Hl & Hx & Hi & Hd). apply In_nth_error in Hg as (q & Hg). assert (X : exists ev, nth_error gm q = Some ev /\ fst ev = e /\ good (snd ev) g).
      { clear - F Hg. revert q Hg. induction F as [|ev eg l m [A B] F IH]; intros [|q] Hg; try discriminate; cbn [nth_error] in *; [injection Hg as ->; cbn [fst snd] in *; exists ev; auto|apply IH; exact Hg]. }
      destruct X as ([e' v] & Hv & Ee & Lg & V). cbn [fst snd] in *. subst e'. apply nth_error_In in Hv. exists v. split; [exact Hv|].
      rewrite EL, nth_error_map, Hs in Hl. injection Hl as <-. rewrite nth_error_map in Hi. unfold side, cs in Hi. rewrite Hx in Hi. cbn [option_map] in Hi. assert (i = num x) by (injection Hi; lia). subst i.
      apply nth_error_In, filter_In in Hx as [Hx O]. apply nth_error_In in Hs. assert (O' := side_surface p s x Hs O). rewrite (V x Hx O') in Hd. split; [exact Hx|]. split; [exact O'|]. injection Hd. lia.
    - intros (v & Hv & Hx & O & ->). assert (X : exists g, In (e, g) gs /\ good v g).
      { clear - F Hv. induction F as [|[a b] [c d] l m [A B] F IH]; [destruct Hv|]. cbn [fst snd] in *. subst c. destruct Hv as [[= -> ->]|Hv]; [exists d; split; [now left|exact B]|]. destruct (IH Hv) as (g & Hg & B'). exists g. split; [now right|exact B']. }
      destruct X as (g & Hg & Lg & V). apply surface_side in O as O'. destruct O' as (s & Hs & Os). apply In_nth_error in Hs as (j & Hs). assert (Hc : In x (side s)) by (apply filter_In; auto). apply In_nth_error in Hc as (a & Ha).
      exists g, j, s, (map (fun c => Z.of_nat (num c)) (side s)), a, (num x). split; [exact Hg|]. split; [exact Hs|]. split; [rewrite EL, nth_error_map, Hs; reflexivity|]. split; [exact Ha|]. split; [rewrite nth_error_map, Ha; reflexivity|]. apply V; assumption.
  Qed.
End Core.
