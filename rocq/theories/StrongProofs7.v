(** Proofs for C66: saturated conditions of forms on meshes; values; the cache. *)
From Coq Require Import List Arith Bool Lia Relations.
From Verif Require Import Prelude PreludeProofs RingSum SpaceModel SpaceSpec SpaceProofs MeshModel MeshSpec MeshProofs MeshProofs3 MeshMapModel MeshMapSpec MeshMapProofs MeshMapProofs2 MeshMapProofs3 NumModel NumSpec NumProofs NumProofs3 NumProofs4 NumProofs5 NumProofs6 NhtModel NhtProofs2
  AssembleModel GatherModel GatherSpec GatherProofs EwcModel AsmModel AsmSpec StrongModel StrongSpec StrongProofs StrongProofs2 StrongProofs3 StrongProofs4 StrongProofs5 StrongProofs6.
Import ListNotations.

Lemma ready_hybrid tuple bnames ms q k p N : (forall l x, In x (tuple l) <-> In x l) -> (forall e row, In (e, row) (concat ms) -> length row = 6) -> length p = 3 -> Forall (fun n => 1 <= n) p ->
  map fst (concat ms) = seq 0 N -> forall iEPs, involved_parts tuple bnames ms q = Some iEPs -> ready k p ms q iEPs (hybrid_numbering (length (cells p (cell_types k))) ms).
Proof.
  intros TP L L3 Fp KK iEPs E. change (cell_types k) with (types k 3).
  assert (NZ : 1 <= length (cells p (types k 3))). { destruct (sides_nonempty k p (0, false) L3 Fp ltac:(cbn; lia)) as (x & Hx & _). destruct (cells p (types k 3)); [destruct Hx|cbn; lia]. }
  destruct (hybrid_ok _ ms N KK NZ) as (_ & H2 & _ & H4).
  assert (KM : map (map fst) (hybrid_numbering (length (cells p (types k 3))) ms) = map (map fst) ms).
  { unfold hybrid_numbering. rewrite map_map. apply map_ext. intros m. rewrite map_map. apply map_ext. intros; reflexivity. }
  eapply (ready_if tuple bnames ms q k p N); eauto. intros D HD. eapply (sat_own k p ms N); eauto.
Qed.
Lemma ready_faces corner bnames bsides m g lays sc bps pairs :
  (forall b, In b bnames -> length lays <= b) -> (forall x, In x bsides -> In (fst x) bnames /\ snd (snd x) < 6) -> region_map corner (length lays) bnames bsides = Some m ->
  Forall (fun lay => length lay = 3 /\ Forall (fun n => 1 <= n) lay) lays -> (forall r lay, nth_error lays r = Some lay -> lens_ok (prodl lay) (sc r)) ->
  boundary_pairs bsides bps = Some pairs ->
  let num r := option_map fst (region_numbering g lays sc r) in let rm r i := name_of (m r i) in
  forall SIZE rs ms, partition SIZE (sum (map prodl lays)) rs -> Forall2 (fun els mm => core_map num lays rm bnames pairs els = Some mm) rs ms ->
  forall tuple p gms q, (forall l x, In x (tuple l) <-> In x l) -> length p = 3 -> Forall (fun n => 1 <= n) p -> naive F2 p ms = Some gms ->
  forall iEPs, involved_parts tuple bnames ms q = Some iEPs -> ready F2 p ms q iEPs gms.
Proof.
  intros HB HS E H3 HL HP num rm SIZE rs ms PA HM tuple p gms q TP L3 Fp EG iEPs EI.
  destruct (mesh_symmetric corner bnames bsides m g lays sc bps pairs HB HS E H3 HL HP SIZE rs ms PA HM) as (KK & SY).
  assert (R6 : forall e row, In (e, row) (concat ms) -> length row = 6) by (intros e row H; apply (SY e row H)).
  assert (R6' : forall e row, In (e, row) (concat ms) -> length row = 2 * length p) by (intros e row H; rewrite (R6 e row H), L3; reflexivity).
  destruct (naive_total F2 p ms _ KK R6' gms EG) as (TT & KM & _). assert (SD := naive_sound F2 p ms _ KK R6' gms EG). rewrite L3 in TT, SD.
  eapply (ready_if tuple bnames ms q F2 p); eauto; [apply TT|]. intros D HD. eapply (sat_faces F2 p ms); eauto.
  - apply TT.
  - intros e f ax up (row & Hrow & En). assert (Ha : ax < 3). { assert (Z : 2 * ax + (if up then 1 else 0) < length row) by (apply nth_error_Some; rewrite En; discriminate). rewrite (R6 e row Hrow) in Z. lia. }
    destruct (proj2 (SY e row Hrow) ax up f Ha En) as (row' & H1 & H2). exists row'. auto.
Qed.
Lemma ready_box corner bnames bsides m g lay sc bps pairs :
  (forall b, In b bnames -> 1 <= b) -> (forall x, In x bsides -> In (fst x) bnames /\ snd (snd x) < 6) -> region_map corner 1 bnames bsides = Some m ->
  length lay = 3 -> Forall (fun n => 1 <= n) lay -> lens_ok (prodl lay) (sc 0) -> boundary_pairs bsides bps = Some pairs ->
  let num r := option_map fst (region_numbering g [lay] sc r) in let rm r i := name_of (m r i) in
  forall SIZE rs ms, partition SIZE (prodl lay) rs -> Forall2 (fun els mm => core_map num [lay] rm bnames pairs els = Some mm) rs ms ->
  forall k p, length p = 3 -> Forall (fun n => 1 <= n) p -> (forall a, a < 3 -> periodic_axis pairs a -> 2 <= nth a lay 0) ->
  (forall a, a < 3 -> periodic_axis pairs a \/ ~ periodic_axis pairs a) ->
  forall tuple q, (forall l x, In x (tuple l) <-> In x l) ->
  exists gms, naive k p ms = Some gms /\ forall iEPs, involved_parts tuple bnames ms q = Some iEPs -> ready k p ms q iEPs gms.
Proof.
  intros HB HS E L3 HP1 HL HP num rm SIZE rs ms PA HM k p Hp3 Hp H2 DEC tuple q TP.
  assert (PER : exists per : nat -> bool, forall a, a < 3 -> (per a = true <-> periodic_axis pairs a)).
  { destruct (choose true 3 (fun a b => b = true <-> periodic_axis pairs a)) as (f & Hf); [|exists f; exact Hf]. intros a Ha. destruct (DEC a Ha) as [H|H]; [exists true; tauto|exists false]. split; [discriminate|contradiction]. }
  destruct PER as (per & HPer).
  destruct (one_region corner bnames bsides m g lay sc bps pairs HB HS E L3 HP1 HL HP SIZE rs ms PA HM per HPer k p Hp3 Hp H2) as (A & para & gms & EA & EG & KM & TT & _ & CC).
  destruct (box_boundary corner bnames bsides m g lay sc bps pairs HB HS E L3 HP1 HL HP SIZE rs ms PA HM per HPer) as (_ & _ & _ & _ & KK & L6 & _).
  exists gms. split; [exact EG|]. intros iEPs EI. eapply (ready_if tuple bnames ms q k p); eauto; [apply TT|]. intros D HD.
  eapply (sat_box corner bnames bsides m g lay sc bps pairs HB HS E L3 HP1 HL HP SIZE rs ms PA HM per HPer k p Hp3 Hp H2); eauto.
Qed.
(** periodicity is decidable *)
Lemma periodic_dec pairs a : periodic_axis pairs a \/ ~ periodic_axis pairs a.
Proof.
  unfold periodic_axis. induction pairs as [|x l IH]; [right; intros (q & [] & _)|].
  assert (LD : forall u v : list (nat * nat), {u = v} + {u <> v}) by (apply list_eq_dec; intros (a1, b1) (a2, b2); destruct (Nat.eq_dec a1 a2), (Nat.eq_dec b1 b2); subst; auto; right; intros H; injection H; auto).
  destruct IH as [(q & Hq & Q)|N]; [left; exists q; split; [right; exact Hq|exact Q]|].
  destruct (LD (psides x) [(0, 2 * a); (0, 2 * a + 1)]) as [E1|N1]; [left; exists x; split; [left; reflexivity|auto]|].
  destruct (LD (psides x) [(0, 2 * a + 1); (0, 2 * a)]) as [E2|N2]; [left; exists x; split; [left; reflexivity|auto]|].
  right. intros (q & [<-|Hq] & [Q|Q]); [contradiction|contradiction|apply N; eauto|apply N; eauto].
Qed.

(** ** values on all cores *)
Lemma values_all (K : CRing) k p ms q iEPs (g : GMat) D (lcs : nat -> local_cochain K) (wl : nat -> nat -> nat -> K) (w : nat -> K) : length p = 3 -> Forall (fun n => 1 <= n) p ->
  (forall r iEP, nth_error iEPs r = Some iEP -> forall e s, In (e, s) iEP <-> beside_boundary ms (asked q) r e s) ->
  (forall r, r < length g -> exists iEP, nth_error iEPs r = Some iEP /\ parse_dofs (local_side k p) iEP = Some (D r)) ->
  (forall r iEP, r < length g -> nth_error iEPs r = Some iEP -> carries (local_side k p) (D r) iEP (wl r) (lcs r)) ->
  (forall r e v d n, gv_of g r e = Some v -> nth_error v d = Some n -> wl r e d = w n) ->
  exists C, (forall r, r < length g -> exists iEP, nth_error iEPs r = Some iEP /\ parse_cochains K (D r) iEP (lcs r) = Some (C r)) /\
    valued (length g) D (fun r => Some (C r)) /\ values_are (length g) g D (fun r => Some (C r)) w.
Proof.
  intros L3 Fp HP HD HC HW.
  assert (X : exists C, forall r, r < length g -> (exists iEP, nth_error iEPs r = Some iEP /\ parse_cochains K (D r) iEP (lcs r) = Some (C r)) /\ forall e l, In (e, l) (D r) -> lookup Nat.eqb e (C r) = Some (map (wl r e) l)).
  { apply (choose [] (length g) (fun r Cr => (exists iEP, nth_error iEPs r = Some iEP /\ parse_cochains K (D r) iEP (lcs r) = Some Cr) /\ forall e l, In (e, l) (D r) -> lookup Nat.eqb e Cr = Some (map (wl r e) l))).
    intros r Hr. destruct (HD r Hr) as (iEP & Er & ED). destruct (values_ok K (local_side k p) iEP (D r) (wl r) (lcs r)) as (C & EC & HV); eauto.
    intros e s l Hs El. apply (HP r iEP Er) in Hs. destruct Hs as (Gs & _). destruct (sides_nonempty k p s L3 Fp Gs) as (x & Hx & Ho).
    destruct p as [|px [|py [|pz [|]]]]; try discriminate. assert (X := local_side_ok px py pz Fp k s ltac:(apply sides_In in Gs; exact Gs)). cbv zeta in X.
    intros ->. rewrite El in X. injection X as X. assert (Z : In x (filter (on_side [px; py; pz] s) (cells [px; py; pz] (types k 3)))) by (apply filter_In; auto). destruct (filter (on_side [px; py; pz] s) (cells [px; py; pz] (types k 3))); [destruct Z|discriminate]. }
  destruct X as (C & HX). exists C. split; [intros r Hr; apply HX; exact Hr|]. split.
  - intros r Hr. intros e l Hl. exists (map (wl r e) l). split; [apply HX; auto|apply map_length].
  - intros r e v d n Hr Ev Ed Hd. unfold value_at. destruct (HX r Hr) as (_ & HL). unfold dofs_at in *. destruct (lookup Nat.eqb e (D r)) as [l|] eqn:El; [|destruct Hd].
    rewrite (HL e l (GatherProofs.lookup_In _ _ _ El)). rewrite (last_given_map K (wl r e) l d Hd). f_equal. eapply HW; eassumption.
Qed.

(** ** the cache *)
Section CacheProofs.
  Variable sides : nat -> nat * bool -> option (list nat).
  Lemma interpret_parts st f : c_parts (snd (interpret_local sides st f)) = c_parts st.
  Proof. unfold interpret_local. destruct (c_parts st f) as [(a, iEP)|]; [|reflexivity]. destruct (c_cache st) as [(b, d)|]; [destruct (b =? a); [reflexivity|]|]; destruct (parse_dofs (sides f) iEP); reflexivity. Qed.
  (** what is in the cache is the interpretation of the list with its address *)
  Definition good (st : cstate) (used : list nat) : Prop :=
    (forall f a iEP, c_parts st f = Some (a, iEP) -> In a used) /\
    match c_cache st with
    | None => True
    | Some (a, d) => In a used /\ forall f iEP, c_parts st f = Some (a, iEP) -> parse_dofs (sides f) iEP = Some d
    end /\ forall f g a i i', c_parts st f = Some (a, i) -> c_parts st g = Some (a, i') -> f = g.
  Lemma good_interpret st used f : good st used -> good (snd (interpret_local sides st f)) used.
  Proof.
    intros (G1 & G2 & G3). unfold good. rewrite interpret_parts. split; [exact G1|]. split; [|exact G3]. unfold interpret_local. destruct (c_parts st f) as [(a, iEP)|] eqn:Ep; [|exact G2].
    assert (MISS : match c_cache (snd (match parse_dofs (sides f) iEP with Some d => (Some d, mkCS (Some (a, d)) (c_parts st)) | None => (None, st) end)) with
                   | None => True | Some (a0, d) => In a0 used /\ forall f0 iEP0, c_parts st f0 = Some (a0, iEP0) -> parse_dofs (sides f0) iEP0 = Some d end).
    { destruct (parse_dofs (sides f) iEP) as [d|] eqn:Ed; [|exact G2]. cbn [c_cache snd]. split; [eapply G1; exact Ep|]. intros f0 i0 H. assert (f0 = f) by (eapply G3; eassumption). subst f0. assert (i0 = iEP) by congruence. subst. exact Ed. }
    destruct (c_cache st) as [(b, d)|] eqn:Ec; [|exact MISS]. destruct (b =? a); [cbn [snd]; rewrite Ec; exact G2|exact MISS].
  Qed.
  Lemma good_run evs : forall st used, good st used -> NoDup (addresses evs) -> (forall a, In a (addresses evs) -> ~ In a used) -> good (fold_left (cstep sides) evs st) (addresses evs ++ used).
  Proof.
    induction evs as [|ev evs IH]; intros st used G N F; [exact G|]. cbn [fold_left]. destruct ev as [f a iEP|f|f].
    - change (addresses (SetBoundaries f a iEP :: evs)) with (a :: addresses evs) in *. inversion N as [|? ? N1 N2]; subst.
      assert (G' : good (cstep sides st (SetBoundaries f a iEP)) (a :: used)).
      { destruct G as (G1 & G2 & G3). assert (Na : ~ In a used) by (apply F; left; reflexivity). split; [|split].
        - intros f0 a0 i0. cbn [cstep c_parts]. destruct (f0 =? f); intros H; [injection H as <- <-; left; reflexivity|right; eapply G1; exact H].
        - cbn [cstep c_cache c_parts]. destruct (c_cache st) as [(b, d)|]; [|exact I]. destruct G2 as (Hb & G2). split; [right; exact Hb|]. intros f0 i0. destruct (f0 =? f) eqn:E0; intros H; [injection H as -> ->; contradiction|]. apply G2. exact H.
        - intros f0 f1 a0 i0 i1. cbn [cstep c_parts]. destruct (f0 =? f) eqn:E0, (f1 =? f) eqn:E1; intros H H'.
          + apply Nat.eqb_eq in E0, E1. congruence.
          + injection H as <- <-. exfalso. apply Na. eapply G1. exact H'.
          + injection H' as <- <-. exfalso. apply Na. eapply G1. exact H.
          + eapply G3; eassumption. }
      assert (Q : good (fold_left (cstep sides) evs (cstep sides st (SetBoundaries f a iEP))) (addresses evs ++ a :: used)).
      { apply IH; [exact G'|exact N2|]. intros b Hb [<-|Hu]; [contradiction|]. apply (F b); [right; exact Hb|exact Hu]. }
      destruct Q as (Q1 & Q2 & Q3). assert (SUB : forall x, In x (addresses evs ++ a :: used) -> In x ((a :: addresses evs) ++ used)) by (intros x Hx; apply in_app_or in Hx; cbn; rewrite in_app_iff; destruct Hx as [Hx|[Hx|Hx]]; auto).
      split; [intros f0 a0 i0 H; apply SUB; eapply Q1; exact H|]. split; [|exact Q3]. destruct (c_cache _) as [(b, d)|]; [|exact I]. destruct Q2 as (Q2 & Q4). split; [apply SUB; exact Q2|exact Q4].
    - apply IH; [|exact N|exact F]. destruct G as (G1 & G2 & G3). split; [|split].
      + intros f0 a0 i0. cbn [cstep c_parts]. destruct (f0 =? f); [discriminate|apply G1].
      + cbn [cstep c_cache c_parts]. destruct (c_cache st) as [(b, d)|]; [|exact I]. destruct G2 as (Hb & G2). split; [exact Hb|]. intros f0 i0. destruct (f0 =? f); [discriminate|apply G2].
      + intros f0 f1 a0 i0 i1. cbn [cstep c_parts]. destruct (f0 =? f); [discriminate|]. destruct (f1 =? f); [discriminate|]. apply G3.
    - apply IH; [|exact N|exact F]. cbn [cstep]. apply good_interpret. exact G.
  Qed.
  Lemma latest_parts evs f : forall st, option_map snd (c_parts (fold_left (cstep sides) evs st) f) = latest evs f (option_map snd (c_parts st f)).
  Proof.
    induction evs as [|ev evs IH]; intros st; [reflexivity|]. cbn [fold_left]. rewrite IH. destruct ev as [g a iEP|g|g]; cbn [latest cstep c_parts].
    - rewrite (Nat.eqb_sym f g). destruct (g =? f); reflexivity.
    - rewrite (Nat.eqb_sym f g). destruct (g =? f); reflexivity.
    - rewrite interpret_parts. reflexivity.
  Qed.
  Lemma cache_ok evs f iEP : NoDup (addresses evs) -> latest evs f None = Some iEP -> fst (interpret_local sides (crun sides evs) f) = parse_dofs (sides f) iEP.
  Proof.
    intros N L. assert (G : good (crun sides evs) (addresses evs ++ [])). { apply good_run; [|exact N|auto]. split; [intros; discriminate|]. split; [exact I|intros; discriminate]. }
    assert (P := latest_parts evs f cstate0). cbn [cstate0 c_parts option_map] in P. fold (crun sides evs) in P. rewrite L in P. destruct (c_parts (crun sides evs) f) as [(a, i)|] eqn:Ep; [|discriminate]. injection P as ->.
    unfold interpret_local. rewrite Ep. destruct G as (_ & G2 & _). destruct (c_cache (crun sides evs)) as [(b, d)|].
    - destruct (b =? a) eqn:E; [|destruct (parse_dofs (sides f) iEP); reflexivity]. apply Nat.eqb_eq in E. subst b. destruct G2 as (_ & G2). cbn [fst]. symmetry. apply G2. exact Ep.
    - destruct (parse_dofs (sides f) iEP); reflexivity.
  Qed.
End CacheProofs.
