(** Two elements side by side. *)
From Coq Require Import List Arith ZArith Lia Bool.
From Verif Require Import Prelude SpaceModel SpaceSpec MeshSpec MeshModel
  MeshMapModel TraceModel TraceSpec RingSum AssembleModel AssembleSpec
  TewModel TewSpec TewProofs TewProofs2 TewProofs3 TewProofs4 TewProofs5.
Import ListNotations.

Definition ex_ms : list emap :=
  [[(0, [Bd 7; El 1; Bd 7; Bd 7; Bd 7; Bd 7]);
    (1, [El 0; Bd 7; Bd 7; Bd 7; Bd 7; Bd 7])]].
Definition ex_map : list (nat * list nat) :=
  [(0, [0; 1; 2; 3; 4; 5]); (1, [1; 6; 7; 8; 9; 10])].

Lemma ex_core : exists o, trace_elements (combine ex_ms [[]]) = Some ([o], 11) /\
  snd o = ex_map /\
  map (fun tr => (fst tr, cp (snd tr))) (fst o)
  = [(10, (1, 5)); (9, (1, 4)); (8, (1, 3)); (7, (1, 2)); (6, (1, 1));
     (5, (0, 5)); (4, (0, 4)); (3, (0, 3)); (2, (0, 2)); (1, (0, 1));
     (0, (0, 0))].
Proof. eexists. split; [vm_compute; reflexivity|]. split; reflexivity. Qed.

Definition ex_cp : list (nat * (nat * nat)) :=
  [(10, (1, 5)); (9, (1, 4)); (8, (1, 3)); (7, (1, 2)); (6, (1, 1));
   (5, (0, 5)); (4, (0, 4)); (3, (0, 3)); (2, (0, 2)); (1, (0, 1));
   (0, (0, 0))].
(** 2-trace-forms and 0-trace-forms of lowest degree. *)
Definition ex_hybrid : tform :=
  mktform ex_map ex_cp [1; 1; 1; 1; 1; 1] 6 Hybrid.
Definition ex_shared : tform :=
  mktform ex_map ex_cp [4; 4; 4; 4; 4; 4] 8
    (Gathered (combine (seq 0 6)
      [[0; 1; 2; 3]; [4; 5; 6; 7]; [0; 4; 2; 6]; [1; 5; 3; 7]; [0; 4; 1; 5];
       [2; 6; 3; 7]]%Z)).

Lemma ex_symmetric : map fst (concat ex_ms) = seq 0 2 /\
  (forall e row, In (e, row) (concat ex_ms) -> length row = 6) /\
  (forall e j f, TraceSpec.entry (concat ex_ms) e j (El f) ->
     TraceSpec.entry (concat ex_ms) f (facing j) (El e)) /\
  Forall2 selfp ex_ms [[]].
Proof.
  assert (Q : forall e j f, TraceSpec.entry (concat ex_ms) e j (El f) ->
    (e = 0 /\ j = 1 /\ f = 1) \/ (e = 1 /\ j = 0 /\ f = 0)).
  { intros e j f [row [[I|[I|[]]] A]]; injection I as <- <-;
      do 6 (destruct j as [|j]; [try discriminate A; injection A as <-; auto|]);
      destruct j; discriminate A. }
  split; [reflexivity|]. split; [|split].
  - intros e row [I|[I|[]]]; injection I as <- <-; reflexivity.
  - intros e j f H. destruct (Q e j f H) as [[-> [-> ->]]|[-> [-> ->]]].
    + exists [El 0; Bd 7; Bd 7; Bd 7; Bd 7; Bd 7].
      split; [right; left; reflexivity|reflexivity].
    + exists [Bd 7; El 1; Bd 7; Bd 7; Bd 7; Bd 7].
      split; [left; reflexivity|reflexivity].
  - constructor; [|constructor]. intros e j H.
    destruct (Q e j e H) as [[-> [_ A]]|[-> [_ A]]]; discriminate A.
Qed.

Lemma ex_fit : fits ex_hybrid /\ fits ex_shared.
Proof.
  destruct ex_core as [o [E [Em Ec]]].
  destruct ex_symmetric as [A [B [C D]]].
  assert (P : Forall (fun n => 1 <= n) [1; 1; 1]) by (repeat constructor).
  assert (H := forms_fit 2 ex_ms A B C [[]] D [o] 11 E o (or_introl eq_refl)
    1 1 1 P).
  split.
  - destruct (H 2) as [H2 _]. unfold core_form in H2. rewrite Em, Ec in H2.
    exact H2.
  - destruct (H 0) as [_ [L [n [HL [Hn H0]]]]]. unfold core_form in H0.
    rewrite Em, Ec in H0.
    assert (EL : lg0 [1; 1; 1] = Some
      [[0; 1; 2; 3]; [4; 5; 6; 7]; [0; 4; 2; 6]; [1; 5; 3; 7]; [0; 4; 1; 5];
       [2; 6; 3; 7]]%Z) by (vm_compute; reflexivity).
    rewrite EL in HL. injection HL as <-.
    assert (En : n = 8) by (apply Nat2Z.inj; rewrite Hn; vm_compute; reflexivity).
    subst n. exact H0.
Qed.

(** Vectors that agree on the common trace element, and some that do not. *)
Definition ex_L : list (nat * list ZR) :=
  [(0, [1; 2; 3; 4; 5; 6]%Z); (1, [2; 7; 8; 9; 10; 11]%Z)].
Definition ex_L' : list (nat * list ZR) :=
  [(0, [1; 2; 3; 4; 5; 6]%Z); (1, [20; 7; 8; 9; 10; 11]%Z)].
Definition ex_T : list (nat * list ZR) :=
  [(0, [1]%Z); (1, [2]%Z); (2, [3]%Z); (3, [4]%Z); (4, [5]%Z); (5, [6]%Z); (6, [7]%Z);
   (7, [8]%Z); (8, [9]%Z); (9, [10]%Z); (10, [11]%Z)].
(** The same for shared dofs: node [x] of element 0 has value 10 + x. *)
Definition ex_S : list (nat * list ZR) :=
  [(0, [10; 11; 12; 13; 14; 15; 16; 17]%Z);
   (1, [14; 15; 16; 17; 24; 25; 26; 27]%Z)].

Lemma ex_keys : keys_ok ex_L /\ keys_ok ex_T /\ keys_ok ex_S.
Proof.
  repeat split; unfold keys_ok; cbn [map fst ex_L ex_T ex_S];
    repeat (constructor; [cbn; lia|]); constructor.
Qed.

Lemma ex_covers : covers ex_hybrid ex_L /\ covers ex_shared ex_S.
Proof. split; intro e; cbn; tauto. Qed.

Lemma ex_local_shapes : local_shapes ex_hybrid ex_L /\
  local_shapes ex_shared ex_S.
Proof. split; intros e v [I|[I|[]]]; injection I as <- <-; reflexivity. Qed.

Lemma ex_single : forall m, t_map m = ex_map ->
  forall L : list (nat * list ZR), keys_ok L ->
  (forall v w p d d', In (0, v) L -> In (1, w) L -> entry m 1 p d ->
     entry m 0 p d' -> nth_error v d = nth_error w d') ->
  fits m -> single_valued m L.
Proof.
  intros m Em L NL H F te e a f b v w p d d' [r [R A]] [r' [R' A']] Iv Iw Ea Eb.
  rewrite Em in R, R'.
  assert (Same : (e = f /\ a = b) \/ (e = 0 /\ a = 1 /\ f = 1 /\ b = 0) \/
    (e = 1 /\ a = 0 /\ f = 0 /\ b = 1)).
  { destruct R as [R|[R|[]]]; injection R as <- <-;
      destruct R' as [R'|[R'|[]]]; injection R' as <- <-;
      do 6 (destruct a as [|a]; [injection A as <-;
        do 6 (destruct b as [|b]; [try discriminate A'; auto 10|]);
        destruct b; discriminate A'|]); destruct a; discriminate A. }
  destruct Same as [[<- <-]|[[-> [-> [-> ->]]]|[-> [-> [-> ->]]]]].
  - rewrite (entry_fun m F a p d d' Ea Eb), (keys_same _ _ _ _ NL Iv Iw).
    reflexivity.
  - exact (H v w p d d' Iv Iw Ea Eb).
  - symmetry. exact (H w v p d' d Iw Iv Eb Ea).
Qed.

Lemma ex_single_valued : single_valued ex_hybrid ex_L /\
  single_valued ex_shared ex_S.
Proof.
  destruct ex_keys as [A [_ B]]. split.
  - apply ex_single; [reflexivity|exact A| |exact (proj1 ex_fit)].
    intros v w p d d' Iv Iw [n [N [P ->]]] [n' [N' [P' ->]]].
    injection N as <-. assert (p = 0) by lia. subst p.
    destruct Iv as [Iv|[Iv|[]]]; try discriminate Iv; injection Iv as <-.
    destruct Iw as [Iw|[Iw|[]]]; try discriminate Iw; injection Iw as <-.
    reflexivity.
  - apply ex_single; [reflexivity|exact B| |exact (proj2 ex_fit)].
    intros v w p d d' Iv Iw [g [G P]] [g' [G' P']].
    destruct Iv as [Iv|[Iv|[]]]; try discriminate Iv; injection Iv as <-.
    destruct Iw as [Iw|[Iw|[]]]; try discriminate Iw; injection Iw as <-.
    cbn in G, G'.
    repeat (destruct G as [G|G]; [try discriminate G|]); [|destruct G].
    injection G as <-.
    repeat (destruct G' as [G'|G']; [try discriminate G'|]); [|destruct G'].
    injection G' as <-.
    do 4 (destruct p as [|p]; [injection P as P; injection P' as P';
      assert (d = d' + 4) by lia; assert (d' < 4) by lia; subst d;
      do 4 (destruct d' as [|d']; [reflexivity|]); lia|]).
    destruct p; discriminate P.
Qed.

Lemma ex_tew : tew_shapes ex_hybrid ex_T /\
  (forall te, In te (map fst (t_cp ex_hybrid)) -> In te (map fst ex_T)).
Proof.
  split.
  - apply tew_shapes_iff; [exact (proj1 ex_fit)|]. reflexivity.
  - intros te I. cbn in I |- *. tauto.
Qed.

(** *** What does not hold *)

Lemma not_single : exists s1 s2 s3 L'',
  set_local ex_hybrid ex_L' new_state = Done s1 /\
  get_tew ex_hybrid s1 = (Done s2, Some (rev ex_T)) /\
  set_tew ex_hybrid (rev ex_T) s2 = Done s3 /\ s_local s3 = Some L'' /\
  L'' = ex_L /\ s_local s1 = Some ex_L'.
Proof. do 4 eexists. repeat split; vm_compute; reflexivity. Qed.

Lemma rejected_changes : exists s1 s2 : state ZR,
  set_local ex_hybrid ex_L new_state = Done s1 /\ s_full s1 = Some true /\
  set_local ex_hybrid [(0, [1; 2]%Z : list ZR)] s1 = Raised s2 /\
  s_local s2 = Some ex_L /\ s_full s2 = Some false.
Proof. do 2 eexists. repeat split; vm_compute; reflexivity. Qed.

Lemma foreign_full : exists s1 : state ZR,
  set_local ex_hybrid [(5, [1; 2; 3; 4; 5; 6]%Z : list ZR);
    (6, [1; 2; 3; 4; 5; 6]%Z : list ZR)]
    new_state = Done s1 /\ s_full s1 = Some true /\
  get_tew ex_hybrid s1 = (Done (mkstate (s_local s1) (Some []) (Some true)),
                          Some []).
Proof. eexists. repeat split; vm_compute; reflexivity. Qed.

Lemma partial_misses : exists s1 s2 T,
  set_local ex_hybrid [(1, [2; 7; 8; 9; 10; 11]%Z : list ZR)]
    new_state = Done s1 /\
  get_tew ex_hybrid s1 = (Done s2, Some T) /\
  TewSpec.on_side ex_hybrid 1 1 0 /\ ~ In 1 (map fst T).
Proof.
  do 3 eexists. split; [vm_compute; reflexivity|].
  split; [vm_compute; reflexivity|]. split.
  - exists [1; 6; 7; 8; 9; 10]. split; [right; left; reflexivity|reflexivity].
  - cbn. lia.
Qed.

(** All values 1 on one side, 2 on the others. *)
Definition ex_bad : list (nat * list ZR) :=
  map (fun te => (te, repeat (if te =? 2 then 1%Z else 2%Z) 4)) (seq 0 11).

Lemma disagree : exists s1 L v,
  set_tew ex_shared ex_bad new_state = Done s1 /\ s_local s1 = Some L /\
  get_tew ex_shared s1 = (Done s1, Some ex_bad) /\
  In (0, v) L /\ TewSpec.on_side ex_shared 2 0 2 /\
  In (2, [1; 1; 1; 1]%Z) ex_bad /\ v = [2; 2; 2; 2; 2; 2; 2; 2]%Z.
Proof.
  do 3 eexists. split; [vm_compute; reflexivity|].
  split; [reflexivity|]. split; [vm_compute; reflexivity|].
  split; [left; reflexivity|]. split.
  - exists [0; 1; 2; 3; 4; 5]. split; [left; reflexivity|reflexivity].
  - split; [cbn; tauto|reflexivity].
Qed.
