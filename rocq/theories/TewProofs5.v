(** The trace forms on the meshes of the trace element model fit. *)
From Coq Require Import List Arith ZArith Lia Bool.
From Verif Require Import Prelude SpaceModel SpaceSpec MeshSpec MeshModel
  MeshMapModel TraceModel TraceSpec TraceProofs2 TraceProofs3 SpaceProofs5
  SpaceProofs7 RingSum AssembleModel AssembleSpec AssembleProofs
  TewModel TewSpec TewProofs
  TewProofs2.
Import ListNotations.

Lemma NoDup_parts {A} : forall l l' : list A, NoDup (l ++ l') ->
  NoDup l /\ NoDup l'.
Proof.
  induction l as [|x l IH]; intros l' H; [split; [constructor|exact H]|].
  cbn [app] in H. inversion H as [|y ys X Y]; subst.
  destruct (IH l' Y) as [B C]. split; [|exact C].
  constructor; [|exact B]. intro I. apply X, in_app_iff. left. exact I.
Qed.

Section Gather.
  Variables (px py pz : nat).
  Hypothesis Fp : Forall (fun n => 1 <= n) [px; py; pz].
  Let p := [px; py; pz].

  Lemma surface_gathering : forall ts L N ns,
    numbers_surface p ts L N ->
    map (fun s => length (filter (SpaceSpec.on_side p s) (cells p ts))) sides3
      = ns ->
    (forall n, In n ns -> 1 <= n) ->
    map (@length Z) L = ns /\ numbers_0_to L (Z.of_nat N).
  Proof.
    intros ts L N ns [num [EL [_ HN]]] En Pn.
    assert (El : map (@length Z) L = ns).
    { rewrite EL, map_map, <- En. apply map_ext. intro s. apply map_length. }
    split; [exact El|].
    assert (Q : forall z, In z (concat L) <-> (0 <= z < Z.of_nat N)%Z).
    { intro z. rewrite in_concat. split.
      - intros [g [G Z]]. rewrite EL in G. apply in_map_iff in G.
        destruct G as [s [<- S]]. apply in_map_iff in Z.
        destruct Z as [c [<- C]]. apply filter_In in C. destruct C as [C1 C2].
        assert (num c < N); [|lia]. apply HN. exists c. split; [exact C1|].
        split; [|reflexivity]. unfold on_surface. apply existsb_exists.
        exists s. auto.
      - intros [Z0 Z1]. destruct (proj1 (HN (Z.to_nat z)) ltac:(lia))
          as [c [C1 [C2 C3]]].
        unfold on_surface in C2. apply existsb_exists in C2.
        destruct C2 as [s [S1 S2]]. eexists. split.
        + rewrite EL. apply in_map_iff. exists s. split; [reflexivity|exact S1].
        + apply in_map_iff. exists c. split; [rewrite C3; lia|].
          apply filter_In. auto. }
    split; [|split; [|exact Q]].
    - destruct L as [|g L].
      + rewrite <- El in En. discriminate En.
      + destruct g as [|z g].
        * assert (H : 1 <= 0); [|lia]. apply Pn. rewrite <- El. left.
          reflexivity.
        * assert (Z := proj1 (Q z) (or_introl eq_refl)). lia.
    - intros g G E. subst g. assert (H : 1 <= 0); [|lia]. apply Pn.
      rewrite <- El. apply (in_map (@length Z) _ _ G).
  Qed.

  Lemma gathering_ok : forall k,
    exists L N, (match k with 0 => lg0 p | 1 => lg1 p | _ => lg2 p end) = Some L
    /\ Z.of_nat N = (match k with 0 => nt0_nonhybrid p | 1 => nt1_nonhybrid p
                                | _ => nt2_nonhybrid p end) /\
    length L = 6 /\
    map (@length Z) L
      = onsides (match k with 0 => on0 | 1 => on1 | _ => on2 end) p /\
    numbers_0_to L (Z.of_nat N).
  Proof.
    assert (P3 : 1 <= px /\ 1 <= py /\ 1 <= pz).
    { inversion Fp as [|? ? A B]; subst. inversion B as [|? ? C D]; subst.
      inversion D; subst. auto. }
    destruct P3 as [Px [Py Pz]].
    assert (L6 : forall L : list (list Z), forall f, map (@length Z) L
      = onsides f p -> length L = 6).
    { intros L f H. rewrite <- (map_length (@length Z)), H. reflexivity. }
    intros [|[|k]].
    - destruct (lg0_ok px py pz Fp) as [L [N [E [H HN]]]]. exists L, N.
      destruct (surface_gathering nodes3 L N (onsides on0 p) H) as [A B].
      + exact (len0 px py pz Fp).
      + intros n I. cbn in I. unfold on0 in I.
        repeat destruct I as [<-|I]; nia.
      + exact (conj E (conj HN (conj (L6 L _ A) (conj A B)))).
    - destruct (lg1_ok px py pz Fp) as [L [N [E [H HN]]]]. exists L, N.
      destruct (surface_gathering edges3 L N (onsides on1 p) H) as [A B].
      + exact (len1 px py pz Fp).
      + intros n I. cbn in I. unfold on1 in I.
        repeat destruct I as [<-|I]; nia.
      + exact (conj E (conj HN (conj (L6 L _ A) (conj A B)))).
    - destruct (lg2_ok px py pz Fp) as [L [N [E [H HN]]]]. exists L, N.
      destruct (surface_gathering faces3 L N (onsides on2 p) H) as [A B].
      + exact (len2 px py pz Fp).
      + intros n I. cbn in I. unfold on2 in I.
        repeat destruct I as [<-|I]; nia.
      + exact (conj E (conj HN (conj (L6 L _ A) (conj A B)))).
  Qed.
End Gather.

(** The form on one core. *)
Definition core_form (o : list (nat * tel) * list (nat * list nat))
  (on : list nat) (n : nat) (ds : dofs) : tform :=
  mktform (snd o) (map (fun tr => (fst tr, cp (snd tr))) (fst o)) on n ds.

Lemma onsides_facing : forall f px py pz j, j < 6 ->
  nth_error (onsides f [px; py; pz]) (facing j)
  = nth_error (onsides f [px; py; pz]) j.
Proof.
  intros f px py pz j J. do 6 (destruct j as [|j]; [reflexivity|]). lia.
Qed.

Lemma core_fits : forall N ms, map fst (concat ms) = seq 0 N ->
  (forall e row, In (e, row) (concat ms) -> length row = 6) ->
  (forall e j f, TraceSpec.entry (concat ms) e j (El f) ->
     TraceSpec.entry (concat ms) f (facing j) (El e)) ->
  forall ups, Forall2 selfp ms ups ->
  forall outs G, trace_elements (combine ms ups) = Some (outs, G) ->
  forall o, In o outs -> forall px py pz f n ds,
  match ds with
  | Hybrid => sum (onsides f [px; py; pz]) = n
  | Gathered G => map fst G = seq 0 6 /\
      map (fun ag => length (snd ag)) G = onsides f [px; py; pz] /\
      numbers_0_to (map snd G) (Z.of_nat n)
  end ->
  fits (core_form o (onsides f [px; py; pz]) n ds).
Proof.
  intros N ms HN H6 HS ups HU outs G HT o Io px py pz f n ds HD.
  destruct (traces_ok N ms HN H6 HS ups HU) as [outs' [G' [E [GC [TT _]]]]].
  assert (X := eq_trans (eq_sym HT) E). injection X as <- <-.
  assert (Ms : exists mu, In mu (combine ms ups) /\ good_core mu o).
  { exact (Forall2_in_r _ _ _ _ GC Io). }
  destruct Ms as [mu [Imu [K1 [K2 [K3 [K4 K5]]]]]].
  assert (Ent : forall e j t, TraceSpec.entry (snd o) e j t ->
    TraceSpec.entry (concat (map snd outs)) e j t).
  { intros e j t [row [R A]]. exists row. split; [|exact A].
    apply in_concat. exists (snd o). split; [apply in_map, Io|exact R]. }
  assert (Kc : map fst (map (fun tr => (fst tr, cp (snd tr))) (fst o))
               = map fst (fst o)).
  { rewrite map_map. reflexivity. }
  assert (J6 : forall e j t, TraceSpec.entry (snd o) e j t -> j < 6).
  { intros e j t [row [R A]]. rewrite <- (K2 e row R). apply nth_error_Some.
    rewrite A. discriminate. }
  unfold fits, core_form, on_side. cbn [t_map t_cp t_onside t_basis t_dofs].
  split; [|split; [|split; [|split; [|split; [|split]]]]].
  - rewrite K1. clear -HN Imu. destruct mu as [mm up].
    apply in_combine_l in Imu. cbn [fst].
    assert (ND : NoDup (map fst (concat ms))) by (rewrite HN; apply seq_NoDup).
    clear HN. induction ms as [|m0 ms IH]; [destruct Imu|].
    cbn [concat] in ND. rewrite map_app in ND. destruct Imu as [->|Imu].
    + exact (proj1 (NoDup_parts _ _ ND)).
    + exact (IH Imu (proj2 (NoDup_parts _ _ ND))).
  - rewrite Kc. exact K3.
  - exact K2.
  - reflexivity.
  - intros te e a O.
    assert (It : In te (map fst (fst o))) by (apply K4; exists e, a; exact O).
    apply in_keys in It. destruct It as [r It].
    destruct (K5 te r It) as [ce [cs [x [_ [Oc [Ec _]]]]]].
    exists ce, cs. split.
    + apply in_map_iff. exists (te, r). cbn [fst snd]. rewrite Ec. auto.
    + destruct (proj1 (TT ce cs e a te te (Ent _ _ _ Oc) (Ent _ _ _ O))
        eq_refl) as [[_ ->]|[_ ->]]; [reflexivity|].
      symmetry. apply onsides_facing. exact (J6 ce cs te Oc).
  - intros te ce cs I. apply in_map_iff in I. destruct I as [[t r] [Et It]].
    cbn [fst snd] in Et. injection Et as -> Ec.
    destruct (K5 te r It) as [e [j [x [_ [O [Ec' _]]]]]].
    rewrite Ec in Ec'. injection Ec' as -> ->. exact O.
  - exact HD.
Qed.

(** Trace forms of every degree on every core of a mesh. *)
Lemma forms_fit : forall N ms, map fst (concat ms) = seq 0 N ->
  (forall e row, In (e, row) (concat ms) -> length row = 6) ->
  (forall e j f, TraceSpec.entry (concat ms) e j (El f) ->
     TraceSpec.entry (concat ms) f (facing j) (El e)) ->
  forall ups, Forall2 selfp ms ups ->
  forall outs G, trace_elements (combine ms ups) = Some (outs, G) ->
  forall o, In o outs -> forall px py pz,
  Forall (fun n => 1 <= n) [px; py; pz] -> forall k,
  let p := [px; py; pz] in
  let on := match k with 0 => on0 | 1 => on1 | _ => on2 end in
  fits (core_form o (onsides on p) (ntrace on p) Hybrid) /\
  exists L n,
    (match k with 0 => lg0 p | 1 => lg1 p | _ => lg2 p end) = Some L /\
    Z.of_nat n = (match k with 0 => nt0_nonhybrid p | 1 => nt1_nonhybrid p
                             | _ => nt2_nonhybrid p end) /\
    fits (core_form o (onsides on p) n (Gathered (combine (seq 0 6) L))).
Proof.
  intros N ms HN H6 HS ups HU outs G HT o Io px py pz Fp k p on.
  assert (C := core_fits N ms HN H6 HS ups HU outs G HT o Io px py pz on).
  split; [apply C; symmetry; apply ntrace_sum|].
  destruct (gathering_ok px py pz Fp k) as [L [n [EL [En [L6 [Ll NL]]]]]].
  exists L, n. split; [exact EL|]. split; [exact En|]. apply C.
  assert (A : forall (l : list (list Z)) i,
    map fst (combine (seq i (length l)) l) = seq i (length l) /\
    map snd (combine (seq i (length l)) l) = l).
  { clear. induction l as [|x l IH]; intro i; [split; reflexivity|].
    cbn [length seq combine map fst snd]. destruct (IH (S i)) as [A B].
    rewrite A, B. split; reflexivity. }
  destruct (A L 0) as [A1 A2]. rewrite L6 in A1, A2.
  split; [exact A1|]. split.
  - assert (Q : map (fun ag => length (snd ag)) (combine (seq 0 6) L)
                = map (@length Z) (map snd (combine (seq 0 6) L)))
      by (rewrite map_map; reflexivity).
    rewrite Q, A2. exact Ll.
  - rewrite A2. exact NL.
Qed.
