(** Local trace forms of every degree; the smallest ones on two elements. *)
From Coq Require Import List Arith ZArith Lia Bool.
From Verif Require Import Prelude SpaceModel SpaceSpec SpaceProofs5 RingSum AssembleModel AssembleSpec TewModel TewSpec TewProofs TewProofs2 TewProofs5.
From Verif Require Import LtcModel LtcSpec LtcProofs LtcProofs2 LtcProofs3.
Import ListNotations.

Theorem forms_lt els px py pz k : NoDup els -> Forall (fun n => 1 <= n) [px; py; pz] ->
  let p := [px; py; pz] in let on := match k with 0 => on0 | 1 => on1 | _ => on2 end in
  (lt_fits (mklt els (onsides on p) (ntrace on p) Hybrid) /\ opposite_alike (mklt els (onsides on p) (ntrace on p) Hybrid)) /\
  exists L n, (match k with 0 => lg0 p | 1 => lg1 p | _ => lg2 p end) = Some L /\
    Z.of_nat n = (match k with 0 => nt0_nonhybrid p | 1 => nt1_nonhybrid p | _ => nt2_nonhybrid p end) /\
    lt_fits (mklt els (onsides on p) n (Gathered (combine (seq 0 6) L))) /\ opposite_alike (mklt els (onsides on p) n (Gathered (combine (seq 0 6) L))).
Proof.
  intros N Fp p on. assert (O : forall b, nth_error (onsides on p) (2 * b) = nth_error (onsides on p) (2 * b + 1)).
  { intros b. destruct b as [|[|[|b]]]; try reflexivity. replace (2 * S (S (S b))) with (S (S (S (S (S (S (2 * b))))))) by lia. replace (S (S (S (S (S (S (2 * b)))))) + 1) with (S (S (S (S (S (S (S (2 * b))))))) ) by lia.
    subst p. unfold onsides. cbn [nth_error]. destruct (2 * b); reflexivity. }
  split; [split; [split; [exact N|split; [reflexivity|symmetry; apply ntrace_sum]]|exact O]|].
  destruct (gathering_ok px py pz Fp k) as (L & n & EL & En & L6 & Ll & NL). exists L, n. split; [exact EL|]. split; [exact En|]. split; [|exact O].
  assert (A : forall (l : list (list Z)) i, map fst (combine (seq i (length l)) l) = seq i (length l) /\ map snd (combine (seq i (length l)) l) = l).
  { clear. induction l as [|x l IH]; intros i; [split; reflexivity|]. cbn [length seq combine map fst snd]. destruct (IH (S i)) as (A & B). rewrite A, B. split; reflexivity. }
  destruct (A L 0) as (A1 & A2). rewrite L6 in A1, A2. split; [exact N|]. split; [reflexivity|]. cbn [l_dofs l_onside l_basis]. split; [exact A1|]. split; [|rewrite A2; exact NL].
  refine (eq_trans _ Ll). transitivity (map (@length Z) (map snd (combine (seq 0 6) L))); [rewrite map_map; reflexivity|rewrite A2; reflexivity].
Qed.

Definition lh : ltform := mklt [0; 1] [1; 1; 1; 1; 1; 1] 6 Hybrid.
(* 2-forms of degrees (1, 2, 1) *)
Definition l2 : ltform := mklt [0; 1] [2; 2; 1; 1; 2; 2] 10 Hybrid.
Definition ls : ltform := mklt [0; 1] [4; 4; 4; 4; 4; 4] 8
  (Gathered (combine (seq 0 6) [[0; 1; 2; 3]; [4; 5; 6; 7]; [0; 4; 2; 6]; [1; 5; 3; 7]; [0; 4; 1; 5]; [2; 6; 3; 7]]%Z)).
Lemma nd01 : NoDup [0; 1].
Proof. apply (seq_NoDup 2 0). Qed.
Lemma lh_fits : lt_fits lh /\ opposite_alike lh.
Proof. exact (proj1 (forms_lt [0; 1] 1 1 1 2 nd01 ltac:(repeat constructor))). Qed.
Lemma l2_fits : lt_fits l2 /\ opposite_alike l2.
Proof. exact (proj1 (forms_lt [0; 1] 1 2 1 2 nd01 ltac:(repeat constructor))). Qed.
Lemma ls_fits : lt_fits ls /\ opposite_alike ls.
Proof.
  destruct (proj2 (forms_lt [0; 1] 1 1 1 0 nd01 ltac:(repeat constructor))) as (L & n & EL & En & H).
  assert (E : lg0 [1; 1; 1] = Some [[0; 1; 2; 3]; [4; 5; 6; 7]; [0; 4; 2; 6]; [1; 5; 3; 7]; [0; 4; 1; 5]; [2; 6; 3; 7]]%Z) by (vm_compute; reflexivity).
  rewrite E in EL. injection EL as <-. assert (n = 8) by (apply Nat2Z.inj; rewrite En; vm_compute; reflexivity). subst n. exact H.
Qed.

Definition hL : list (nat * list ZR) := [(0, [1; 2; 3; 4; 5; 6]%Z); (1, [7; 8; 9; 10; 11; 12]%Z)].
Definition sL : list (nat * list ZR) := [(1, [10; 11; 12; 13; 14; 15; 16; 17]%Z); (0, [0; 1; 2; 3; 4; 5; 6; 7]%Z)].
Lemma sL_ok : NoDup (map fst sL) /\ lt_shapes ls sL /\ forall e, In e (map fst sL) -> In e (l_els ls).
Proof.
  split; [repeat constructor; cbn; intuition lia|]. split; [|cbn; intuition lia]. intros e v [I|[I|[]]]; injection I as <- <-; reflexivity.
Qed.
Definition sT0 : list (nat * list ZR) := [(0, [0; 1; 2; 3]%Z); (1, [4; 5; 6; 7]%Z); (2, [0; 4; 2; 6]%Z); (3, [1; 5; 3; 7]%Z); (4, [0; 4; 1; 5]%Z); (5, [2; 6; 3; 7]%Z)].
Definition sT1 : list (nat * list ZR) := [(0, [10; 11; 12; 13]%Z); (1, [14; 15; 16; 17]%Z); (2, [10; 14; 12; 16]%Z); (3, [11; 15; 13; 17]%Z); (4, [10; 14; 11; 15]%Z); (5, [12; 16; 13; 17]%Z)].
(* value 9 on the north side where the west side has 0 *)
Definition sTx : list (nat * list ZR) := [(0, [9; 1; 2; 3]%Z); (1, [4; 5; 6; 7]%Z); (2, [0; 4; 2; 6]%Z); (3, [1; 5; 3; 7]%Z); (4, [0; 4; 1; 5]%Z); (5, [2; 6; 3; 7]%Z)].
Lemma sT_ok : esw_ok ls [(0, sT0)].
Proof.
  split; [repeat constructor; cbn; intuition lia|]. intros e E [I|[]]. injection I as <- <-. split; [left; reflexivity|]. split; [apply (seq_NoDup 6 0)|].
  intros a w I. cbn in I. repeat (destruct I as [I|I]; [injection I as <- <-; reflexivity|]). destruct I.
Qed.
Lemma sTx_ok : esw_ok ls [(0, sTx)].
Proof.
  split; [repeat constructor; cbn; intuition lia|]. intros e E [I|[]]. injection I as <- <-. split; [left; reflexivity|]. split; [apply (seq_NoDup 6 0)|].
  intros a w I. cbn in I. repeat (destruct I as [I|I]; [injection I as <- <-; reflexivity|]). destruct I.
Qed.
Lemma entry_ls a p g : at_key a (match l_dofs ls with Gathered G => G | Hybrid => [] end) = Some g -> forall d, nth_error g p = Some (Z.of_nat d) -> lt_entry ls a p d.
Proof. intros A d H. exists g. split; [apply at_key_in, A|exact H]. Qed.

Theorem full_refuted : exists (m : ltform) (T : list (nat * list (nat * list ZR))) (L : list (nat * list ZR)), lt_fits m /\ esw_ok m T /\
  set_esw m T new_lstate = LDone (mkls (Some L) (Some T) (Some true)) /\ (exists e, In e (l_els m) /\ ~ In e (map fst L)) /\
  set_local_lt m L new_lstate = LDone (mkls (Some L) None (Some false)).
Proof.
  exists ls, [(0, sT0)], [(0, [0; 1; 2; 3; 4; 5; 6; 7]%Z)]. split; [exact (proj1 ls_fits)|]. split; [exact sT_ok|]. split; [vm_compute; reflexivity|]. split; [|reflexivity].
  exists 1. split; [right; left; reflexivity|]. cbn. intuition lia.
Qed.
Theorem sides_refuted : exists (m : ltform) (T : list (nat * list (nat * list ZR))) s L e v a w, lt_fits m /\ esw_ok m T /\ set_esw m T new_lstate = LDone s /\
  ls_local s = Some L /\ In (e, v) L /\ on_element_side m s e a = Some w /\ ~ side_values m a v w.
Proof.
  exists ls, [(0, sTx)]. eexists. eexists. exists 0, [0; 1; 2; 3; 4; 5; 6; 7]%Z, 0, [9; 1; 2; 3]%Z. split; [exact (proj1 ls_fits)|]. split; [exact sTx_ok|].
  split; [vm_compute; reflexivity|]. split; [reflexivity|]. split; [left; reflexivity|]. split; [reflexivity|]. intros (_ & H).
  specialize (H 0 0 (entry_ls 0 0 _ eq_refl 0 eq_refl)). discriminate H.
Qed.
Theorem cache_raises : exists m e a, lt_fits m /\ opposite_alike m /\ In e (l_els m) /\ a < 6 /\ fst (dofs_on_side m e a (after_places m [a])) = None.
Proof. exists lh, 1, 2. split; [apply lh_fits|]. split; [apply lh_fits|]. split; [right; left; reflexivity|]. split; [lia|reflexivity]. Qed.
Theorem cache_wrong : exists m e a l, lt_fits m /\ opposite_alike m /\ In e (l_els m) /\ a < 6 /\ fst (dofs_on_side m e a (after_places m [a])) = Some l /\ ~ side_numbers m e a l.
Proof. exists l2, 1, 0, [10]. split; [apply l2_fits|]. split; [apply l2_fits|]. split; [right; left; reflexivity|]. split; [lia|]. split; [reflexivity|]. intros (H & _). discriminate H. Qed.
Theorem cache_ends : exists m e a i j, lt_fits m /\ opposite_alike m /\ In e (l_els m) /\ a < 6 /\ fst (local_dofs_on_side m a (after_numbers m [(e, a)])) = Some (Ends i j) /\
  ~ side_places m a [i; j].
Proof. exists lh, 0, 3, 3, 4. split; [apply lh_fits|]. split; [apply lh_fits|]. split; [left; reflexivity|]. split; [lia|]. split; [reflexivity|]. intros (H & _). discriminate H. Qed.
