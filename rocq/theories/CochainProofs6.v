(** Proofs about CochainModel: distribution with a chained gathering matrix. *)
From Coq Require Import List Arith ZArith QArith Qcanon Bool Lia.
From Verif Require Import Prelude PreludeProofs AssembleModel MeshMapModel SpacingModel GatherModel GatherSpec GatherProofs CochainModel CochainSpec CochainProofs CochainProofs2 CochainProofs3 CochainProofs4.
Import ListNotations.
Local Open Scope nat_scope.

Lemma sum_le_firstn j : forall ns, sum (firstn j ns) <= sum ns.
Proof. induction j as [|j IH]; intros [|n ns]; cbn; try lia. specialize (IH ns). unfold sum in IH. lia. Qed.
Lemma sum_firstn_lt j : forall ns n, nth_error ns j = Some n -> sum (firstn j ns) + n <= sum ns.
Proof. induction j as [|j IH]; intros [|m ns] n H; try discriminate; cbn in *; [injection H as ->; lia|]. specialize (IH ns n H). unfold sum in IH. lia. Qed.
(** blocks *)
Lemma blocks : forall (l : list GV) a (off : nat -> nat), let w := concat (map (fun jv : nat * GV => map (fun d => d + off (fst jv)) (snd jv)) (combine (seq a (length l)) l)) in
  length w = sum (map (@length nat) l) /\
  (forall x, In x w -> exists j v d, nth_error l j = Some v /\ In d v /\ x = d + off (a + j)) /\
  forall j v i, nth_error l j = Some v -> i < length v -> nth (sum (firstn j (map (@length nat) l)) + i) w 0 = nth i v 0 + off (a + j).
Proof.
  induction l as [|v0 l IH]; intros a off; cbn [length seq combine map concat fst snd].
  - split; [reflexivity|]. split; [intros x []|]. intros [|j]; discriminate.
  - destruct (IH (S a) off) as (A & B & C). cbn zeta in A, B, C. split; [rewrite app_length, map_length, A; reflexivity|]. split.
    + intros x Hx. apply in_app_or in Hx as [Hx|Hx].
      * apply in_map_iff in Hx as (d & <- & Hd). exists 0, v0, d. rewrite Nat.add_0_r. auto.
      * destruct (B x Hx) as (j & v & d & E1 & E2 & E3). exists (S j), v, d. split; [exact E1|]. split; [exact E2|]. rewrite E3. f_equal. f_equal. lia.
    + intros [|j] v i Ev Hi.
      * injection Ev as ->. cbn [firstn sum fold_right Nat.add]. rewrite app_nth1 by (rewrite map_length; exact Hi). rewrite (nth_indep _ 0 (0 + off a)) by (rewrite map_length; exact Hi). rewrite (map_nth (fun d => d + off a)), Nat.add_0_r. reflexivity.
      * cbn [nth_error] in Ev. cbn [firstn sum fold_right]. fold (sum (firstn j (map (@length nat) l))). rewrite app_nth2 by (rewrite map_length; lia). rewrite map_length.
        replace (length v0 + sum (firstn j (map (@length nat) l)) + i - length v0) with (sum (firstn j (map (@length nat) l)) + i) by lia. rewrite (C j v i Ev Hi). f_equal. f_equal. lia.
Qed.
Theorem chain_silly_ok SIZE gms ns nbs V : well_numbered SIZE gms ns -> length nbs = length gms -> (forall j g r e v, nth_error gms j = Some g -> gv_of g r e = Some v -> nth_error nbs j = Some (length v)) ->
  sum ns <= length V -> let els := map (elements (nth 0 gms [])) (seq 0 SIZE) in
  exists out, distributed_chain V (CGM_getitem SIZE gms Silly) els nbs = Some out /\ length out = length gms /\
    forall j g o, nth_error gms j = Some g -> nth_error out j = Some o -> map (map fst) o = els /\
      forall r e v, gv_of g r e = Some v -> In (e, map (fun d => nth (sum (firstn j ns) + d) V q0) v) (nth r o []).
Proof.
  intros W LB RB LV els. pose proof W as [W1 W2 W3 W4 W5 W6 W7].
  assert (G0 : In (nth 0 gms []) gms) by (destruct gms; [contradiction|now left]).
  assert (EV : forall r e j g, r < SIZE -> In e (elements (nth 0 gms []) r) -> nth_error gms j = Some g -> exists v, gv_of g r e = Some v /\ nth_error (local_vectors gms r e) j = Some v).
  { intros r e j g Hr He Hg. assert (X := W5 _ g r e G0 (nth_error_In _ _ Hg) He). unfold elements in X. apply lookup_keys in X as (v & X). exists v. split; [exact X|]. unfold local_vectors. rewrite nth_error_map, Hg. cbn. unfold gv_of in *. rewrite X. reflexivity. }
  assert (LL : forall r e, r < SIZE -> In e (elements (nth 0 gms []) r) -> map (@length nat) (local_vectors gms r e) = nbs).
  { intros r e Hr He. apply nth_ext with (d := 0) (d' := 0); [unfold local_vectors; rewrite !map_length; congruence|]. intros j Hj. unfold local_vectors in Hj. rewrite !map_length in Hj.
    destruct (nth_error gms j) as [g|] eqn:Eg; [|apply nth_error_None in Eg; lia]. destruct (EV r e j g Hr He Eg) as (v & Ev & En). assert (Y := RB j g r e v Eg Ev). rewrite (nth_error_nth _ _ _ Y). apply nth_error_nth. apply map_nth_error. exact En. }
  assert (HW : forall r e, r < SIZE -> In e (elements (nth 0 gms []) r) -> exists w, CGM_getitem SIZE gms Silly r e = Some w /\ length w = sum nbs /\ Forall (fun d => d < length V) w /\
      forall j g v i, nth_error gms j = Some g -> gv_of g r e = Some v -> i < length v -> nth (sum (firstn j nbs) + i) w 0 = nth i v 0 + sum (firstn j ns)).
  { intros r e Hr He. rewrite (silly_value SIZE gms ns W r e Hr He). eexists. split; [reflexivity|]. destruct (blocks (local_vectors gms r e) 0 (fun j => sum (firstn j ns))) as (A & B & C). cbn zeta in A, B, C. unfold enumerate. rewrite (LL r e Hr He) in A, C. split; [exact A|]. split.
    - apply Forall_forall. intros x Hx. destruct (B x Hx) as (j & v & d & E1 & E2 & ->). cbn [Nat.add]. assert (Hj : j < length gms) by (apply nth_error_Some; intros E; unfold local_vectors in E1; rewrite nth_error_map, E in E1; discriminate).
      destruct (nth_error gms j) as [g|] eqn:Eg; [|apply nth_error_None in Eg; lia]. destruct (EV r e j g Hr He Eg) as (v' & Ev & En). assert (v' = v) by congruence. subst v'.
      destruct (nth_error ns j) as [n|] eqn:En'; [|apply nth_error_None in En'; lia]. destruct (W7 j g n Eg En') as (_ & WD). assert (d < n) by (apply WD; exists r, e, v; auto). assert (S1 := sum_firstn_lt j ns n En'). lia.
    - intros j g v i Eg Ev Hi. apply (C j v i); [|exact Hi]. destruct (EV r e j g Hr He Eg) as (v' & Ev' & En). congruence. }
  assert (EE : forall r l, nth_error els r = Some l -> r < SIZE /\ l = elements (nth 0 gms []) r).
  { intros r l H. unfold els in H. rewrite nth_error_map in H. destruct (nth_error (seq 0 SIZE) r) as [q|] eqn:Q; [|discriminate]. assert (R : r < SIZE) by (rewrite <- (seq_length SIZE 0); apply nth_error_Some; congruence).
    apply (nth_error_nth _ _ 0) in Q. rewrite seq_nth in Q by exact R. cbn in Q, H. split; [exact R|]. congruence. }
  destruct (chain_ok V (CGM_getitem SIZE gms Silly) els nbs) as (out & E & LO & R).
  { intros r l e Hl He. destruct (EE r l Hl) as (Hr & ->). destruct (HW r e Hr He) as (w & A & B & C & _). exists w. auto. }
  exists out. split; [exact E|]. split; [congruence|]. intros j g o Eg Eo. destruct (nth_error nbs j) as [n|] eqn:En; [|apply nth_error_None in En; assert (j < length gms) by (apply nth_error_Some; congruence); lia].
  destruct (R j n o En Eo) as (R1 & R2). split; [exact R1|]. intros r e v Ev.
  assert (Hr : r < SIZE). { destruct (Nat.lt_ge_cases r SIZE) as [A|A]; [exact A|]. unfold gv_of, gm_local in Ev. rewrite nth_overflow in Ev by (rewrite (W3 g (nth_error_In _ _ Eg)); exact A). discriminate. }
  assert (He : In e (elements (nth 0 gms []) r)). { apply (W5 g _ r e (nth_error_In _ _ Eg) G0). unfold elements. apply lookup_keys. exists v. exact Ev. }
  destruct (HW r e Hr He) as (w & A & _ & _ & D). assert (El : nth_error els r = Some (elements (nth 0 gms []) r)).
  { unfold els. rewrite nth_error_map. rewrite (nth_error_nth' (seq 0 SIZE) 0) by (rewrite seq_length; exact Hr). rewrite seq_nth by exact Hr. reflexivity. }
  destruct (R2 r _ e w El He A) as (x & X1 & X2 & X3). assert (NE : n = length v) by (assert (Y := RB j g r e v Eg Ev); congruence). rewrite NE in X2, X3.
  replace (map (fun d => nth (sum (firstn j ns) + d) V q0) v) with x; [exact X1|]. apply nth_ext with (d := q0) (d' := q0); [rewrite map_length; exact X2|]. intros i Hi. rewrite X2 in Hi. rewrite (X3 i Hi), (D j g v i Eg Ev Hi).
  set (h := fun d => nth (sum (firstn j ns) + d) V q0). rewrite (nth_indep (map h v) q0 (h 0)) by (rewrite map_length; exact Hi). rewrite map_nth. unfold h. f_equal. lia.
Qed.
