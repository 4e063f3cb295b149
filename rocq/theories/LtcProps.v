(* Properties C154, C155. *)
From Coq Require Import List Arith ZArith Lia Bool.
From Verif Require Import Prelude SpaceModel RingSum AssembleModel AssembleSpec TewModel LtcModel LtcSpec LtcProofs LtcProofs2 LtcProofs3 LtcExample.
Import ListNotations.

Theorem C154_to_sides : forall (K : CRing) m, lt_fits m -> forall (L : list (nat * list K)) s, NoDup (map fst L) -> lt_shapes m L ->
  exists s1 T, set_local_lt m L s = LDone s1 /\ get_esw m s1 = (LDone (mkls (Some L) (Some T) (ls_full s1)), Some T) /\ sides_of m L T.
Proof. exact @get_esw_ok. Qed.
Print Assumptions C154_to_sides.
Example C154_to_sides_ex : exists s1, set_local_lt ls sL new_lstate = LDone s1 /\ snd (get_esw ls s1) = Some [(1, sT1); (0, sT0)] /\ sides_of ls sL [(1, sT1); (0, sT0)].
Proof.
  destruct sL_ok as (A & B & _). destruct (get_esw_ok ls (proj1 ls_fits) sL new_lstate A B) as (s1 & T & E1 & E2 & E3). exists s1. split; [exact E1|].
  assert (Q : T = [(1, sT1); (0, sT0)]); [|subst T; rewrite E2; split; [reflexivity|exact E3]]. injection E1 as <-. vm_compute in E2. injection E2 as <-. reflexivity.
Qed.

Theorem C154_from_sides : forall (K : CRing) m, lt_fits m -> forall (T : list (nat * list (nat * list K))) s, esw_ok m T ->
  exists L full, set_esw m T s = LDone (mkls (Some L) (Some T) (Some full)) /\
  (full = true <-> forall e E, In (e, E) T -> length E = 6) /\ lt_shapes m L /\ (forall e, In e (map fst L) <-> exists E, In (e, E) T /\ length E = 6) /\
  (forall e v E, In (e, v) L -> In (e, E) T -> sides_agree m E -> forall a w, In (a, w) E -> side_values m a v w).
Proof. exact @set_esw_ok. Qed.
Print Assumptions C154_from_sides.
Example C154_from_sides_ex : exists full, set_esw ls [(0, sT0)] new_lstate = LDone (mkls (Some [(0, [0; 1; 2; 3; 4; 5; 6; 7]%Z : list ZR)]) (Some [(0, sT0)]) (Some full)).
Proof. destruct (set_esw_ok ls (proj1 ls_fits) [(0, sT0)] new_lstate sT_ok) as (L & full & E & _). exists full. rewrite E. vm_compute in E. injection E as <- <-. reflexivity. Qed.

Theorem C154_back : forall (K : CRing) m, lt_fits m -> forall (L : list (nat * list K)) s, NoDup (map fst L) -> (forall e, In e (map fst L) -> In e (l_els m)) -> lt_shapes m L ->
  exists T, snd (get_esw m (after (set_local_lt m L s))) = Some T /\ forall s', exists full, set_esw m T s' = LDone (mkls (Some L) (Some T) full).
Proof. exact @back_ok. Qed.
Print Assumptions C154_back.
Example C154_back_ex : exists full, set_esw ls [(1, sT1); (0, sT0)] new_lstate = LDone (mkls (Some sL) (Some [(1, sT1); (0, sT0)]) full).
Proof.
  destruct sL_ok as (A & B & C). destruct (back_ok ls (proj1 ls_fits) sL new_lstate A C B) as (T & E & H). vm_compute in E. injection E as <-. exact (H new_lstate).
Qed.

Theorem C154_on_side : forall (K : CRing) m, lt_fits m -> forall (os : list (lt_op K)) e a L v, Forall (op_ok m) os ->
  ls_local (fold_left (do_op m) os new_lstate) = Some L -> In (e, v) L -> a < 6 ->
  exists w, on_element_side m (fold_left (do_op m) os new_lstate) e a = Some w /\ side_values m a v w.
Proof. exact @on_element_side_ok. Qed.
Print Assumptions C154_on_side.
Example C154_on_side_ex : on_element_side ls (fold_left (do_op ls) [SetLocal sL; GetEsw; SetLocal [(0, [1%Z : ZR])]] new_lstate) 1 4 = Some [10; 14; 11; 15]%Z.
Proof.
  destruct (on_element_side_ok ls (proj1 ls_fits) [SetLocal sL; GetEsw; SetLocal [(0, [1%Z : ZR])]] 1 4 sL [10; 11; 12; 13; 14; 15; 16; 17]%Z) as (w & E & _);
    [|reflexivity|left; reflexivity|lia|rewrite E; vm_compute in E; injection E as <-; reflexivity].
  constructor; [exact (proj1 sL_ok)|]. constructor; [exact I|]. constructor; [|constructor]. repeat constructor; cbn; intuition.
Qed.

Theorem C154_full : forall (K : CRing) m, lt_fits m -> forall (L : list (nat * list K)) s, NoDup (map fst L) -> (forall e, In e (map fst L) -> In e (l_els m)) ->
  (ls_full (after (set_local_lt m L s)) = Some true <-> forall e, In e (l_els m) -> In e (map fst L)).
Proof. exact @full_local_ok. Qed.
Print Assumptions C154_full.
Example C154_full_ex : ls_full (after (set_local_lt ls sL new_lstate)) = Some true.
Proof. apply (full_local_ok ls (proj1 ls_fits) sL new_lstate (proj1 sL_ok) (proj2 (proj2 sL_ok))). cbn. intuition. Qed.

Theorem C154_full_refuted : exists (m : ltform) (T : list (nat * list (nat * list ZR))) (L : list (nat * list ZR)), lt_fits m /\ esw_ok m T /\
  set_esw m T new_lstate = LDone (mkls (Some L) (Some T) (Some true)) /\ (exists e, In e (l_els m) /\ ~ In e (map fst L)) /\
  set_local_lt m L new_lstate = LDone (mkls (Some L) None (Some false)).
Proof. exact full_refuted. Qed.
Print Assumptions C154_full_refuted.

Theorem C154_sides_refuted : exists (m : ltform) (T : list (nat * list (nat * list ZR))) s L e v a w, lt_fits m /\ esw_ok m T /\ set_esw m T new_lstate = LDone s /\
  ls_local s = Some L /\ In (e, v) L /\ on_element_side m s e a = Some w /\ ~ side_values m a v w.
Proof. exact sides_refuted. Qed.
Print Assumptions C154_sides_refuted.

Theorem C154_set_globe : forall (K : CRing) m (V : list K) s, (forall e d i, In e (l_els m) -> nth_error (lt_numbers m e) d = Some i -> i < length V) ->
  exists L, set_globe_full m V s = LDone (mkls (Some L) None (Some true)) /\ map fst L = l_els m /\
  forall e v, In (e, v) L -> length v = l_basis m /\ forall d i, nth_error (lt_numbers m e) d = Some i -> nth_error v d = nth_error V i.
Proof. exact @set_globe_ok. Qed.
Print Assumptions C154_set_globe.
Example C154_set_globe_ex : set_globe_full lh ([1; 2; 3; 4; 5; 6; 7; 8; 9; 10; 11; 12]%Z : list ZR) new_lstate = LDone (mkls (Some hL) None (Some true)).
Proof.
  destruct (set_globe_ok lh ([1; 2; 3; 4; 5; 6; 7; 8; 9; 10; 11; 12]%Z : list ZR) new_lstate) as (L & E & _); [|rewrite E; vm_compute in E; injection E as <-; reflexivity].
  intros e d i [<-|[<-|[]]] H; rewrite numbers_at in H; cbn [lh l_basis] in H; destruct (Nat.ltb_spec d 6); try discriminate H; injection H as <-; cbn [length]; lia.
Qed.

Theorem C154_get_globe : forall (K : CRing) m, lt_fits m -> forall (L : list (nat * list K)) s, ls_local s = Some L -> NoDup (map fst L) -> map fst L = l_els m -> lt_shapes m L ->
  exists G, lt_globe m s = Some G /\ NoDup (map fst G) /\
  forall i x, In (i, x) G <-> exists e v d, In (e, v) L /\ nth_error (lt_numbers m e) d = Some i /\ nth_error v d = Some x.
Proof. exact @globe_ok. Qed.
Print Assumptions C154_get_globe.
Example C154_get_globe_ex : exists G, lt_globe lh (mkls (Some hL) None None) = Some G /\ In (8, 9%Z) G /\ NoDup (map fst G).
Proof.
  destruct (globe_ok lh (proj1 lh_fits) hL (mkls (Some hL) None None) eq_refl nd01 eq_refl) as (G & E & N & H).
  { intros e v [I|[I|[]]]; injection I as <- <-; reflexivity. }
  exists G. split; [exact E|]. split; [|exact N]. apply H. exists 1, [7; 8; 9; 10; 11; 12]%Z, 2. split; [right; left; reflexivity|]. split; reflexivity.
Qed.

Theorem C155_forms : forall els px py pz k, NoDup els -> Forall (fun n => 1 <= n) [px; py; pz] ->
  let p := [px; py; pz] in let on := match k with 0 => on0 | 1 => on1 | _ => on2 end in
  (lt_fits (mklt els (onsides on p) (ntrace on p) Hybrid) /\ opposite_alike (mklt els (onsides on p) (ntrace on p) Hybrid)) /\
  exists L n, (match k with 0 => lg0 p | 1 => lg1 p | _ => lg2 p end) = Some L /\
    Z.of_nat n = (match k with 0 => nt0_nonhybrid p | 1 => nt1_nonhybrid p | _ => nt2_nonhybrid p end) /\
    lt_fits (mklt els (onsides on p) n (Gathered (combine (seq 0 6) L))) /\ opposite_alike (mklt els (onsides on p) n (Gathered (combine (seq 0 6) L))).
Proof. exact forms_lt. Qed.
Print Assumptions C155_forms.
Example C155_forms_ex : lt_fits lh /\ lt_fits ls.
Proof. exact (conj (proj1 lh_fits) (proj1 ls_fits)). Qed.

Theorem C155_once : forall m e e' d d' i, nth_error (lt_numbers m e) d = Some i -> nth_error (lt_numbers m e') d' = Some i -> e = e' /\ d = d'.
Proof. exact numbers_once. Qed.
Print Assumptions C155_once.
Example C155_once_ex : nth_error (lt_numbers lh 1) 2 = Some 8 /\ forall e d, nth_error (lt_numbers lh e) d = Some 8 -> e = 1 /\ d = 2.
Proof. split; [reflexivity|]. intros e d H. exact (numbers_once lh e 1 d 2 8 H eq_refl). Qed.

Theorem C155_cover : forall m n i, (exists e d, e < n /\ nth_error (lt_numbers m e) d = Some i) <-> i < n * l_basis m.
Proof. exact numbers_cover. Qed.
Print Assumptions C155_cover.
Example C155_cover_ex : exists e d, e < 2 /\ nth_error (lt_numbers lh e) d = Some 11.
Proof. apply (numbers_cover lh 2 11). cbn. lia. Qed.

Theorem C155_side_numbers : forall m, lt_fits m -> opposite_alike m -> forall es e a, a < 6 ->
  exists l, fst (dofs_on_side m e a (after_numbers m es)) = Some l /\ side_numbers m e a l.
Proof. exact only_numbers_ok. Qed.
Print Assumptions C155_side_numbers.
Example C155_side_numbers_ex : fst (dofs_on_side l2 1 5 (after_numbers l2 [(0, 5); (1, 0)])) = Some [18; 19].
Proof. destruct (only_numbers_ok l2 (proj1 l2_fits) (proj2 l2_fits) [(0, 5); (1, 0)] 1 5 ltac:(lia)) as (l & E & _). rewrite E. vm_compute in E. injection E as <-. reflexivity. Qed.

Theorem C155_side_places : forall m, lt_fits m -> opposite_alike m -> forall sides a, a < 6 ->
  exists l, fst (local_dofs_on_side m a (after_places m sides)) = Some (Arange l) /\ side_places m a l.
Proof. exact only_places_ok. Qed.
Print Assumptions C155_side_places.
Example C155_side_places_ex : fst (local_dofs_on_side ls 4 (after_places ls [0; 4])) = Some (Arange [0; 4; 1; 5]).
Proof. destruct (only_places_ok ls (proj1 ls_fits) (proj2 ls_fits) [0; 4] 4 ltac:(lia)) as (l & E & _). rewrite E. vm_compute in E. injection E as <-. reflexivity. Qed.

Theorem C155_boundary : forall m, lt_fits m -> opposite_alike m -> forall es, (forall e a, In (e, a) es -> a < 6) -> exists ds, fst (boundary_dofs_lt m es []) = Some ds /\
  forall i, In i ds <-> exists e a p d, In (e, a) es /\ lt_entry m a p d /\ i = e * l_basis m + d.
Proof. exact boundary_ok. Qed.
Print Assumptions C155_boundary.
Example C155_boundary_ex : exists ds, fst (boundary_dofs_lt l2 [(0, 0); (1, 5)] []) = Some ds /\ In 19 ds.
Proof.
  destruct (boundary_ok l2 (proj1 l2_fits) (proj2 l2_fits) [(0, 0); (1, 5)]) as (ds & E & H); [intros e a [I|[I|[]]]; injection I as <- <-; lia|]. exists ds. split; [exact E|].
  apply H. exists 1, 5, 1, 9. split; [right; left; reflexivity|]. split; [exists 2; split; [reflexivity|split; [lia|reflexivity]]|reflexivity].
Qed.

Theorem C155_raises_refuted : exists m e a, lt_fits m /\ opposite_alike m /\ In e (l_els m) /\ a < 6 /\ fst (dofs_on_side m e a (after_places m [a])) = None.
Proof. exact cache_raises. Qed.
Print Assumptions C155_raises_refuted.

Theorem C155_wrong_refuted : exists m e a l, lt_fits m /\ opposite_alike m /\ In e (l_els m) /\ a < 6 /\ fst (dofs_on_side m e a (after_places m [a])) = Some l /\ ~ side_numbers m e a l.
Proof. exact cache_wrong. Qed.
Print Assumptions C155_wrong_refuted.

Theorem C155_ends_refuted : exists m e a i j, lt_fits m /\ opposite_alike m /\ In e (l_els m) /\ a < 6 /\ fst (local_dofs_on_side m a (after_numbers m [(e, a)])) = Some (Ends i j) /\
  ~ side_places m a [i; j].
Proof. exact cache_ends. Qed.
Print Assumptions C155_ends_refuted.
