(** Proofs about RunnerModel: the order of the loops, the slaves, other solvers and used runners, reading of names. *)
From Coq Require Import String Ascii List Arith Bool Lia.
From Verif Require Import AssembleModel RunnerModel RunnerSpec RunnerProofs RunnerProofs2 RunnerProofs3 RunnerProofs4 RunnerProofs6.
Import ListNotations.
Local Open Scope nat_scope.
Local Open Scope list_scope.

Lemma nth_flat {A B} (f : A -> list B) n l : (forall x, In x l -> length (f x) = n) -> forall i j x, nth_error l i = Some x -> j < n -> nth_error (flat_map f l) (i * n + j) = nth_error (f x) j.
Proof.
  induction l as [|y l IH]; intros H i j x E J; [destruct i; discriminate|]. cbn [flat_map]. assert (Hy := H y (or_introl eq_refl)). destruct i as [|i]; cbn [nth_error] in E.
  - injection E as ->. cbn [Nat.mul Nat.add]. apply nth_error_app1. lia.
  - rewrite nth_error_app2 by (cbn [Nat.mul]; lia). replace (S i * n + j - length (f y)) with (i * n + j) by (cbn [Nat.mul]; lia). apply IH; [intros z Hz; apply H; now right|exact E|exact J].
Qed.
Lemma length_flat {A B} (f : A -> list B) n l : (forall x, In x l -> length (f x) = n) -> length (flat_map f l) = length l * n.
Proof. induction l as [|y l IH]; intros H; [reflexivity|]. cbn [flat_map length Nat.mul]. rewrite app_length, IH by (intros z Hz; apply H; now right). rewrite (H y (or_introl eq_refl)). reflexivity. Qed.
Lemma nth_seq n i : i < n -> nth_error (seq 0 n) i = Some i.
Proof. intros H. rewrite (nth_error_nth' _ 0) by (rewrite seq_length; exact H). rewrite seq_nth by exact H. reflexivity. Qed.

Section Order.
Variable V : Type.
Lemma widest (i0 : list (list (option V))) : forall s r, In r i0 -> length r <= fold_left (fun s r => if s <? length r then length r else s) i0 s.
Proof.
  assert (G : forall (l : list (list (option V))) s, s <= fold_left (fun s r => if s <? length r then length r else s) l s).
  { induction l as [|x l IH]; intros s; [reflexivity|]. cbn [fold_left]. etransitivity; [|apply IH]. destruct (Nat.ltb_spec s (length x)); lia. }
  induction i0 as [|x l IH]; intros s r; [intros []|]. cbn [fold_left]. intros [->|H]; [|apply IH; exact H]. etransitivity; [|apply G]. destruct (Nat.ltb_spec s (length r)); lia.
Qed.
Lemma cells_length (i0 : list (list (option V))) i1 i2 : length (cells V i0 i1 i2) = let '(di, dj, dk) := shape V i0 i2 in dk * (di * dj).
Proof.
  unfold cells. destruct (shape V i0 i2) as [[di dj] dk]. rewrite (length_flat _ (di * dj)); [rewrite seq_length; reflexivity|]. intros k _. rewrite (length_flat _ dj); [rewrite seq_length; reflexivity|]. intros i _. rewrite map_length, seq_length. reflexivity.
Qed.
Lemma cells_nth (i0 : list (list (option V))) i1 i2 i j k : let '(di, dj, dk) := shape V i0 i2 in i < di -> j < dj -> k < dk ->
  nth_error (cells V i0 i1 i2) (k * (di * dj) + (i * dj + j)) = Some (cell V i0 i1 i2 i j k).
Proof.
  unfold cells. destruct (shape V i0 i2) as [[di dj] dk]. intros Hi Hj Hk.
  assert (G : i * dj + j < di * dj) by (apply Nat.lt_le_trans with (i * dj + dj); [lia|]; replace (i * dj + dj) with (S i * dj) by (cbn [Nat.mul]; lia); apply Nat.mul_le_mono_r; lia).
  rewrite (nth_flat _ (di * dj) _) with (x := k); [|intros z _; rewrite (length_flat _ dj); [rewrite seq_length; reflexivity|]; intros y _; rewrite map_length, seq_length; reflexivity|apply nth_seq; exact Hk|exact G].
  rewrite (nth_flat _ dj _) with (x := i); [|intros z _; rewrite map_length, seq_length; reflexivity|apply nth_seq; exact Hi|exact Hj].
  rewrite nth_error_map, nth_seq by exact Hj. reflexivity.
Qed.
Lemma cells_all (i0 : list (list (option V))) i1 i2 i j k r s a b c : nth_error i0 i = Some r -> nth_error i1 i = Some s -> nth_error i2 k = Some c ->
  nth_error r j = Some (Some a) -> nth_error s j = Some b ->
  let '(di, dj, dk) := shape V i0 i2 in nth_error (cells V i0 i1 i2) (k * (di * dj) + (i * dj + j)) = Some (Some (a, b, c)).
Proof.
  intros Hr Hs Hc Ha Hb. assert (N := cells_nth i0 i1 i2 i j k). unfold shape in *. rewrite N.
  - unfold cell. rewrite Hr, Hs, Hc, Ha, Hb. reflexivity.
  - apply nth_error_Some. congruence.
  - apply Nat.lt_le_trans with (length r); [apply nth_error_Some; congruence|]. apply widest. exact (nth_error_In _ _ Hr).
  - apply nth_error_Some. congruence.
Qed.
Lemma cells_only (i0 : list (list (option V))) i1 i2 a b c : In (Some (a, b, c)) (cells V i0 i1 i2) ->
  exists i j k r s, nth_error i0 i = Some r /\ nth_error i1 i = Some s /\ nth_error i2 k = Some c /\ nth_error r j = Some (Some a) /\ nth_error s j = Some b.
Proof.
  unfold cells. destruct (shape V i0 i2) as [[di dj] dk]. intros H. apply in_flat_map in H as (k & _ & H). apply in_flat_map in H as (i & _ & H). apply in_map_iff in H as (j & H & _).
  exists i, j, k. unfold cell in H. destruct (nth_error i0 i) as [r|]; [|discriminate]. destruct (nth_error i1 i) as [s|]; [|discriminate]. destruct (nth_error i2 k) as [c'|]; [|discriminate].
  exists r, s. destruct (nth_error r j) as [[a'|]|] eqn:Ea; try discriminate. destruct (nth_error s j) as [b'|] eqn:Eb; [|discriminate]. injection H as -> -> ->. auto.
Qed.
End Order.

Section More.
Variable V : Type.
Variable veqb : V -> V -> bool.
Hypothesis veqb_eq : forall x y, veqb x y = true <-> x = y.
Variables fmt_in fmt_out : V -> text.
Variable parse : text -> option V.
Notation iterate := (iterate V veqb fmt_in fmt_out parse).
(** the slaves do what the master does *)
Lemma steps_slave nout solver clock l : forall st st', steps V veqb fmt_in fmt_out nout solver clock st l = Some st' ->
  exists ev new, sent V st' = sent V st ++ ev /\ calls V st' = calls V st ++ new /\ forall n t d, slave_loop V (length l + n) (ev ++ t) d = slave_loop V n t (d ++ new).
Proof.
  induction l as [|c l IH]; intros st st' H; cbn [steps] in H.
  - injection H as <-. exists [], []. rewrite !app_nil_r. repeat split. intros n t d. rewrite app_nil_r. reflexivity.
  - destruct (step V veqb fmt_in fmt_out nout solver clock st c) as [s1|] eqn:E; [|discriminate]. destruct (IH s1 st' H) as (ev & new & E1 & E2 & E3).
    assert (G : exists ev1 new1, sent V s1 = sent V st ++ ev1 /\ calls V s1 = calls V st ++ new1 /\ forall n t d, slave_loop V (S n) (ev1 ++ t) d = slave_loop V n t (d ++ new1)).
    { unfold step in E. destruct c as [[[a b] c]|].
      - destruct (match pool V st with [] => false | _ => computed V veqb (pool V st) [a; b; c] end).
        + injection E as <-. exists [Send V 2 (Go V false); Barrier V], []. cbn [sent calls]. rewrite app_nil_r. repeat split. intros n t d. rewrite app_nil_r. reflexivity.
        + destruct (clock (length (calls V st))) as [[t1 t2] t3]. destruct (_ =? _); [|discriminate]. match type of E with match ?x with _ => _ end = _ => destruct x; [|discriminate] end. injection E as <-.
          eexists _, _. cbn [sent calls]. repeat split.
      - injection E as <-. exists [Send V 2 (Go V false); Barrier V], []. cbn [sent calls]. rewrite app_nil_r. repeat split. intros n t d. rewrite app_nil_r. reflexivity. }
    destruct G as (ev1 & new1 & G1 & G2 & G3). exists (ev1 ++ ev), (new1 ++ new). rewrite E1, G1, E2, G2, !app_assoc. repeat split. intros n t d. cbn [length Nat.add]. rewrite <- !app_assoc, G3, E3, app_assoc. reflexivity.
Qed.
Lemma slave_ok cf solver clock p fs i0 i1 i2 n st : length (cells V i0 i1 i2) <= n -> iterate cf solver clock p fs i0 i1 i2 n = Some st -> slave V (sent V st) = Some ([], calls V st).
Proof.
  intros N. unfold RunnerModel.iterate. destruct (inputs_ok V i0 i1); [|discriminate]. destruct (prepare V parse cf p fs) as [[[f rows] q]|]; [|discriminate]. assert (C := cells_length V i0 i1 i2). destruct (shape V i0 i2) as [[di dj] dk]. rewrite firstn_all2 by exact N.
  intros H. apply steps_slave in H as (ev & new & E1 & E2 & E3). cbn [sent calls app] in E1, E2. rewrite E1, E2. unfold slave. cbn [receive app barrier Nat.eqb]. rewrite <- C. specialize (E3 0 [] []). rewrite Nat.add_0_r, app_nil_r in E3. exact E3.
Qed.
(** the solver is not looked at *)
Lemma scan_conf cf cf' : ins cf' = ins cf -> outs cf' = outs cf -> criterion cf' = criterion cf -> forall ls i, scan cf' ls i = scan cf ls i.
Proof. intros E1 E2 E3. induction ls as [|l ls IH]; intros i; [reflexivity|]. cbn [scan]. rewrite E1, E2, E3. destruct (starts _ l); [destruct (teqb _ _); [apply IH|reflexivity]|]. destruct (starts _ l); [destruct (field _ l); [destruct (teqb _ _); [apply IH|reflexivity]|reflexivity]|]. destruct (starts _ l); [destruct (teqb _ _); [apply IH|reflexivity]|]. destruct (starts _ l); [apply IH|]. destruct (starts _ l); [reflexivity|apply IH]. Qed.
Lemma all_computed nout solver clock l : forall st, (forall x, In (Some x) l -> computed V veqb (pool V st) (vec3 V x) = true) ->
  exists ev, steps V veqb fmt_in fmt_out nout solver clock st l = Some (mkState V (pool V st) (rdf V st) (out V st) (calls V st) (sent V st ++ ev)).
Proof.
  induction l as [|c l IH]; intros st H; [exists []; rewrite app_nil_r; destruct st; reflexivity|].
  assert (E : step V veqb fmt_in fmt_out nout solver clock st c = Some (mkState V (pool V st) (rdf V st) (out V st) (calls V st) (sent V st ++ [Send V 2 (Go V false); Barrier V]))).
  { destruct c as [[[a b] c]|]; [|reflexivity]. specialize (H _ (or_introl eq_refl)). cbn [vec3] in H. unfold step. destruct (pool V st) as [|p ps] eqn:P; [discriminate|]. rewrite H, <- P. reflexivity. }
  cbn [steps]. rewrite E. destruct (IH (mkState V (pool V st) (rdf V st) (out V st) (calls V st) (sent V st ++ [Send V 2 (Go V false); Barrier V]))) as (ev & E'); [intros x Hx; apply H; now right|].
  exists ([Send V 2 (Go V false); Barrier V] ++ ev). rewrite E'. cbn [pool rdf out calls sent]. rewrite app_assoc. reflexivity.
Qed.
Lemma somes_In {A} (l : list (option A)) x : In (Some x) l <-> In x (somes l).
Proof. induction l as [|[y|] l IH]; cbn [In somes]; [tauto|rewrite IH; split; intros [H|H]; auto; left; congruence|rewrite IH; split; [intros [H|H]; [discriminate|exact H]|auto]]. Qed.
Lemma not_compared cf cf' solver solver' clock f xs i0 i1 i2 : legal cf -> solver_ok V fmt_out parse (length (outs cf)) solver -> Forall (in3_ok V fmt_in parse) xs ->
  holds V fmt_in fmt_out cf solver f xs -> ins cf' = ins cf -> outs cf' = outs cf -> criterion cf' = criterion cf ->
  inputs_ok V i0 i1 = true -> (forall x, In (Some x) (cells V i0 i1 i2) -> In x xs) ->
  exists st, iterate cf' solver' clock [] (Some f) i0 i1 i2 (length (cells V i0 i1 i2)) = Some st /\ calls V st = [] /\ out V st = Some f /\ map (rout V) (rdf V st) = map (app3 V solver) xs.
Proof.
  intros L So Fx (rows & Ef & R) E1 E2 E3 I H. assert (Ro := rows_row_ok V fmt_in fmt_out parse cf solver So xs rows R Fx).
  assert (P : prepare V parse cf' [] (Some f) = Some (f, rows, map (rin V) rows)).
  { assert (P' : prepare V parse cf' [] (Some f) = prepare V parse cf [] (Some f)) by (unfold prepare, read_contents; rewrite (scan_conf cf cf' E1 E2 E3), E1, E2; reflexivity).
    rewrite P', Ef. exact (prepare_rows V fmt_in fmt_out parse cf L rows Ro []). }
  unfold RunnerModel.iterate. rewrite I, P. destruct (shape V i0 i2) as [[di dj] dk]. rewrite firstn_all.
  destruct (all_computed (length (outs cf')) solver' clock (cells V i0 i1 i2) (mkState V (map (rin V) rows) rows (Some f) [] [Send V 1 (Shape V di dj dk); Barrier V])) as (ev & E).
  - intros x Hx. cbn [pool]. destruct R as (_ & R & _). rewrite R, (computed_mem V veqb). apply (mem_In V veqb veqb_eq). apply H. exact Hx.
  - rewrite E. eexists. split; [reflexivity|]. split; [reflexivity|]. split; [reflexivity|]. cbn [rdf]. apply R.
Qed.
Lemma used_runner cf solver clock p i0 i1 i2 : inputs_ok V i0 i1 = true -> (forall x, In (Some x) (cells V i0 i1 i2) -> In (vec3 V x) p) ->
  exists st, iterate cf solver clock p None i0 i1 i2 (length (cells V i0 i1 i2)) = Some st /\ calls V st = [] /\ out V st = Some (header cf) /\ rdf V st = [].
Proof.
  intros I H. unfold RunnerModel.iterate. rewrite I. cbn [prepare]. destruct (shape V i0 i2) as [[di dj] dk]. rewrite firstn_all.
  destruct (all_computed (length (outs cf)) solver clock (cells V i0 i1 i2) (mkState V p [] (Some (header cf)) [] [Send V 1 (Shape V di dj dk); Barrier V])) as (ev & E).
  - intros x Hx. cbn [pool]. unfold computed. apply existsb_exists. exists (vec3 V x). split; [apply H; exact Hx|]. rewrite leqb_vec3. apply eqb3_eq; auto.
  - rewrite E. eexists. repeat split.
Qed.
End More.
