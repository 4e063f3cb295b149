(** Proofs about RunnerModel: the loops, and runners one after the other. *)
From Coq Require Import String Ascii List Arith Bool Lia.
From Verif Require Import AssembleModel RunnerModel RunnerSpec RunnerProofs RunnerProofs2 RunnerProofs3 RunnerProofs4.
Import ListNotations.
Local Open Scope nat_scope.
Local Open Scope list_scope.

Section Loop.
Variable V : Type.
Variable veqb : V -> V -> bool.
Hypothesis veqb_eq : forall x y, veqb x y = true <-> x = y.
Variables fmt_in fmt_out : V -> text.
Variable parse : text -> option V.
Notation eqb3 := (eqb3 V veqb).
Notation vec3 := (vec3 V).
Notation row_text := (row_text V fmt_in fmt_out).
Notation row := (row V).
Notation row_ok := (row_ok V fmt_in fmt_out parse).
Notation in3_ok := (in3_ok V fmt_in parse).
Notation text_of rows := (concat (map row_text rows)).

Lemma eqb3_eq x y : eqb3 x y = true <-> x = y.
Proof.
  destruct x as [[a b] c], y as [[d e] f]. cbn. rewrite !andb_true_iff, !veqb_eq. split; [intros ((-> & ->) & ->); reflexivity|intros H; injection H; auto].
Qed.
Lemma leqb_vec3 x y : leqb V veqb (vec3 x) (vec3 y) = eqb3 x y.
Proof. destruct x as [[a b] c], y as [[d e] f]. cbn. rewrite andb_true_r, andb_assoc. reflexivity. Qed.
Definition mem (x : V * V * V) (xs : list (V * V * V)) : bool := existsb (eqb3 x) xs.
Lemma mem_In x xs : mem x xs = true <-> In x xs.
Proof.
  unfold mem. rewrite existsb_exists. split; [intros (y & H & E); apply eqb3_eq in E; subst y; exact H|intros H; exists x; split; [exact H|apply eqb3_eq; reflexivity]].
Qed.
Lemma computed_mem x xs : computed V veqb (map vec3 xs) (vec3 x) = mem x xs.
Proof. unfold computed, mem. induction xs as [|y xs IH]; [reflexivity|]. cbn [map existsb]. rewrite leqb_vec3, IH. reflexivity. Qed.
(** the calls known when the elements of l have been visited *)
Definition visit (xs : list (V * V * V)) (x : V * V * V) : list (V * V * V) := if mem x xs then xs else xs ++ [x].
Definition extend (xs l : list (V * V * V)) : list (V * V * V) := fold_left visit l xs.
Lemma filter_filter {A} (f g : A -> bool) l : filter f (filter g l) = filter (fun x => g x && f x) l.
Proof. induction l as [|x l IH]; [reflexivity|]. cbn [filter]. destruct (g x); cbn [filter andb]; [destruct (f x); rewrite IH; reflexivity|exact IH]. Qed.
Lemma extend_once l : forall xs, extend xs l = xs ++ filter (fun y => negb (mem y xs)) (once eqb3 l).
Proof.
  induction l as [|x l IH]; intros xs; [cbn; rewrite app_nil_r; reflexivity|]. cbn [extend fold_left once filter]. change (fold_left visit l (visit xs x)) with (extend (visit xs x) l). rewrite IH. unfold visit.
  rewrite filter_filter. destruct (mem x xs) eqn:M; cbn [negb].
  - f_equal. apply filter_ext. intros y. destruct (mem y xs) eqn:My; cbn [negb]; [rewrite andb_false_r; reflexivity|]. rewrite andb_true_r. destruct (eqb3 x y) eqn:E; [apply eqb3_eq in E; subst y; congruence|reflexivity].
  - rewrite <- app_assoc. cbn [app]. do 2 f_equal. apply filter_ext. intros y. unfold mem. rewrite existsb_app. cbn [existsb]. rewrite orb_false_r, negb_orb, andb_comm. f_equal. f_equal.
    destruct (eqb3 y x) eqn:E1, (eqb3 x y) eqn:E2; try reflexivity; [apply eqb3_eq in E1; subst; rewrite (proj2 (eqb3_eq x x) eq_refl) in E2; discriminate|apply eqb3_eq in E2; subst; rewrite (proj2 (eqb3_eq y y) eq_refl) in E1; discriminate].
Qed.
Lemma extend_nil l : extend [] l = once eqb3 l.
Proof. rewrite extend_once. cbn [app]. rewrite <- (filter_ext (fun _ => true)) by reflexivity. induction (once eqb3 l) as [|x m IH]; [reflexivity|]. cbn [filter]. rewrite IH. reflexivity. Qed.
Lemma extend_app xs l m : extend xs (l ++ m) = extend (extend xs l) m.
Proof. apply fold_left_app. Qed.
Lemma extend_known l : forall xs, (forall x, In x l -> In x xs) -> extend xs l = xs.
Proof.
  induction l as [|x l IH]; intros xs H; [reflexivity|]. cbn [extend fold_left]. unfold visit at 2. rewrite (proj2 (mem_In x xs) (H x (or_introl eq_refl))). apply IH. intros y Hy. apply H. now right.
Qed.
Lemma extend_In l : forall xs x, In x (extend xs l) <-> In x xs \/ In x l.
Proof. clear fmt_in fmt_out parse.
  induction l as [|y l IH]; intros xs x; [cbn; tauto|]. cbn [extend fold_left]. change (fold_left visit l (visit xs y)) with (extend (visit xs y) l). rewrite IH. unfold visit. cbn [In]. destruct (mem y xs) eqn:M.
  - apply mem_In in M. split; [tauto|]. intros [H|[<-|H]]; tauto.
  - rewrite in_app_iff. cbn [In]. tauto.
Qed.
Lemma somes_app {A} (l m : list (option A)) : somes (l ++ m) = somes l ++ somes m.
Proof. induction l as [|[x|] l IH]; cbn [app somes]; [reflexivity|rewrite IH; reflexivity|exact IH]. Qed.
Lemma firstn_max {A} n m (l : list A) : n <= m -> firstn m l = firstn n l ++ firstn (m - n) (skipn n l).
Proof.
  intros H. rewrite <- (firstn_skipn n (firstn m l)). rewrite firstn_firstn, Nat.min_l by exact H. f_equal. apply skipn_firstn_comm.
Qed.
Lemma extend_again l a n : extend (once eqb3 (somes (firstn a l))) (somes (firstn n l)) = once eqb3 (somes (firstn (Nat.max a n) l)).
Proof.
  rewrite <- !extend_nil. destruct (Nat.le_gt_cases n a) as [H|H].
  - rewrite Nat.max_l by exact H. apply extend_known. intros x Hx. apply extend_In. right. rewrite (firstn_max n a l H), somes_app. apply in_or_app. left. exact Hx.
  - rewrite Nat.max_r by lia. rewrite (firstn_max a n l) by lia. rewrite somes_app, !extend_app. f_equal. apply extend_known. intros x Hx. apply extend_In. right. exact Hx.
Qed.

Lemma once_In x l : In x (once eqb3 l) <-> In x l.
Proof. rewrite <- extend_nil, extend_In. cbn [In]. split; [intros [[]|H]; exact H|intros H; right; exact H]. Qed.
Lemma once_NoDup l : NoDup (once eqb3 l).
Proof.
  induction l as [|x l IH]; cbn [once]; [constructor|]. constructor; [|apply NoDup_filter; exact IH]. intros H. apply filter_In in H as (_ & H). rewrite (proj2 (eqb3_eq x x) eq_refl) in H. discriminate.
Qed.
Section Run.
Variable cf : conf.
Hypothesis L : legal cf.
Variable solver : V -> V -> V -> list V.
Hypothesis S : solver_ok V fmt_out parse (length (outs cf)) solver.
Notation nout := (length (outs cf)).
Notation rows_of := (rows_of V solver).
(** what is known between the turns of the loops *)
Definition known (st : state V) (xs : list (V * V * V)) : Prop :=
  pool V st = map vec3 xs /\ rows_of xs (rdf V st) /\ out V st = Some (header cf ++ text_of (rdf V st)) /\ Forall in3_ok xs.
Lemma rows_len xs rows : rows_of xs rows -> length rows = length xs.
Proof. intros (_ & H & _). apply (f_equal (@length _)) in H. rewrite !map_length in H. exact H. Qed.
Lemma rows_row_ok xs rows : rows_of xs rows -> Forall in3_ok xs -> Forall (row_ok nout) rows.
Proof.
  intros (_ & I & O & T) F. rewrite Forall_forall in *. intros r H.
  assert (Hi : In (rin V r) (map vec3 xs)) by (rewrite <- I; apply in_map; exact H). assert (Ho : In (rout V r) (map (app3 V solver) xs)) by (rewrite <- O; apply in_map; exact H).
  apply in_map_iff in Hi as (x & Ex & Hx). apply in_map_iff in Ho as (y & Ey & Hy). destruct x as [[a b] c], y as [[d e] f]. cbn in Ex, Ey. specialize (F _ Hx). cbn in F. destruct (S d e f) as (S1 & S2).
  unfold RunnerSpec.row_ok. rewrite <- Ex, <- Ey. split; [reflexivity|]. split; [exact S1|]. split; [exact F|]. split; [exact S2|]. apply T. exact H.
Qed.
Lemma last_idx rows xs : rows_of xs rows -> match rev rows with [] => 0 | r :: _ => idx V r + 1 end = length xs.
Proof.
  intros R. assert (Le := rows_len _ _ R). destruct R as (I & _). destruct rows as [|r rows] using rev_ind; [exact Le|]. clear IHrows. rewrite rev_unit. rewrite app_length in Le. cbn [length] in Le.
  rewrite map_app in I. cbn [map] in I. replace (length xs) with (length rows + 1) in I by lia. rewrite seq_app in I. cbn [seq] in I. apply app_inj_tail in I as (_ & I). lia.
Qed.
Lemma labelled_last rows xs r : rows_of xs rows -> idx V r = length xs -> labelled V (rows ++ [r]) (length xs) = Some r.
Proof.
  intros R E. destruct R as (I & _). unfold labelled. rewrite filter_app.
  assert (N : filter (fun q => idx V q =? length xs) rows = []).
  { assert (G : forall q, In q rows -> idx V q < length xs) by (intros q H; apply (in_map (@idx V)) in H; rewrite I in H; apply in_seq in H; lia).
    clear I. induction rows as [|q rows IH]; [reflexivity|]. cbn [filter]. assert (Q := G q (or_introl eq_refl)). destruct (Nat.eqb_spec (idx V q) (length xs)); [lia|]. apply IH. intros z H. apply G. now right. }
  rewrite N. cbn [app filter]. rewrite E, Nat.eqb_refl. reflexivity.
Qed.
Section Clock.
Variable clock : nat -> text * text * text.
Hypothesis C : clock_ok clock.
Definition news (xs : list (V * V * V)) (c : option (V * V * V)) : list (V * V * V) := match c with None => [] | Some x => if mem x xs then [] else [x] end.
Lemma step_known st xs c : known st xs -> (forall x, c = Some x -> in3_ok x) ->
  exists st', step V veqb fmt_in fmt_out nout solver clock st c = Some st' /\ known st' (xs ++ news xs c) /\ calls V st' = calls V st ++ news xs c.
Proof.
  intros K I. destruct c as [x|]; cbn [news]; [|eexists; split; [reflexivity|]; rewrite !app_nil_r; split; [exact K|reflexivity]].
  destruct K as (P & R & O & F).
  assert (E : match pool V st with [] => false | _ => computed V veqb (pool V st) (vec3 x) end = mem x xs).
  { rewrite P. destruct xs as [|y xs]; [reflexivity|]. apply (computed_mem x (y :: xs)). }
  assert (Ix := I x eq_refl). clear I. destruct x as [[a b] c]. cbn [RunnerSpec.vec3] in E. unfold step. rewrite E. destruct (mem (a, b, c) xs) eqn:M.
  - eexists. split; [reflexivity|]. rewrite !app_nil_r. split; [|reflexivity]. exact (conj P (conj R (conj O F))).
  - destruct (clock (length (calls V st))) as [[t1 t2] t3] eqn:Ec. destruct (S a b c) as (S1 & S2). rewrite S1, Nat.eqb_refl, (last_idx _ _ R), O.
    rewrite (labelled_last _ _ (mkRow V (length xs) [a; b; c] (solver a b c) t1 t2 t3) R eq_refl). cbn [option_map].
    eexists. split; [reflexivity|]. split; [|reflexivity]. unfold known. cbn [pool rdf out].
    split; [rewrite P, map_app; reflexivity|]. split; [|split; [rewrite map_app, concat_app; cbn [map concat]; rewrite app_nil_r, app_assoc; reflexivity|apply Forall_app; split; [exact F|constructor; [exact Ix|constructor]]]].
    destruct R as (R1 & R2 & R3 & R4). unfold RunnerSpec.rows_of. rewrite !map_app, app_length, seq_app, R1, R2, R3. cbn [map length seq Nat.add idx rin rout app3 RunnerSpec.vec3].
    repeat split; try reflexivity. apply Forall_app. split; [exact R4|]. constructor; [|constructor]. assert (Cc := C (length (calls V st))). rewrite Ec in Cc. exact Cc.
Qed.
Lemma steps_known l : forall st xs, known st xs -> Forall in3_ok (somes l) ->
  exists st' new, steps V veqb fmt_in fmt_out nout solver clock st l = Some st' /\ known st' (xs ++ new) /\ calls V st' = calls V st ++ new /\ xs ++ new = extend xs (somes l).
Proof.
  induction l as [|c l IH]; intros st xs K F; [exists st, []; rewrite !app_nil_r; auto|].
  destruct (step_known st xs c K) as (st1 & E1 & K1 & C1); [intros x ->; exact (Forall_inv F)|].
  destruct (IH st1 (xs ++ news xs c) K1) as (st2 & new & E2 & K2 & C2 & X2); [destruct c; [exact (Forall_inv_tail F)|exact F]|].
  exists st2, (news xs c ++ new). cbn [steps]. rewrite E1. split; [exact E2|]. rewrite !app_assoc. split; [exact K2|]. split; [rewrite C2, C1; reflexivity|]. rewrite X2. destruct c as [x|]; cbn [somes news]; [|rewrite app_nil_r; reflexivity].
  cbn [extend fold_left]. change (fold_left visit (somes l) (visit xs x)) with (extend (visit xs x) (somes l)). unfold visit. destruct (mem x xs); [rewrite app_nil_r; reflexivity|reflexivity].
Qed.
End Clock.

Variables (i0 : list (list (option V))) (i1 : list (list V)) (i2 : list V).
Hypothesis I : inputs_ok V i0 i1 = true.
Hypothesis F : Forall in3_ok (somes (cells V i0 i1 i2)).
Lemma firstn_Forall n : Forall in3_ok (somes (firstn n (cells V i0 i1 i2))).
Proof. rewrite <- (firstn_skipn n (cells V i0 i1 i2)), somes_app in F. apply Forall_app in F. apply F. Qed.
Definition start (fs : option text) (xs : list (V * V * V)) : Prop :=
  match fs with None => xs = [] | Some f => holds V fmt_in fmt_out cf solver f xs end.
Lemma iterate_known clock fs xs n : clock_ok clock -> start fs xs -> Forall in3_ok xs ->
  exists st new, iterate V veqb fmt_in fmt_out parse cf solver clock [] fs i0 i1 i2 n = Some st /\ known st (xs ++ new) /\ calls V st = new /\
    xs ++ new = extend xs (somes (firstn n (cells V i0 i1 i2))).
Proof.
  intros C St Fx. unfold iterate. rewrite I. destruct (shape V i0 i2) as [[x y] z].
  assert (P : exists rows, prepare V parse cf [] fs = Some (header cf ++ text_of rows, rows, map vec3 xs) /\ rows_of xs rows).
  { destruct fs as [f|]; cbn [start] in St.
    - destruct St as (rows & -> & R). exists rows. split; [|exact R]. assert (Pr := prepare_rows V fmt_in fmt_out parse cf L rows (rows_row_ok _ _ R Fx) []). cbn [app] in Pr. destruct R as (_ & E & _). rewrite E in Pr. exact Pr.
    - subst xs. exists []. cbn. rewrite app_nil_r. split; [reflexivity|]. repeat split; constructor. }
  destruct P as (rows & -> & R).
  destruct (steps_known clock C (firstn n (cells V i0 i1 i2)) (mkState V (map vec3 xs) rows (Some (header cf ++ text_of rows)) [] [Send V 1 (Shape V x y z); Barrier V]) xs) as (st & new & E & K & Cc & X).
  - repeat split; [apply R|apply R|apply R|apply R|exact Fx].
  - apply firstn_Forall.
  - exists st, new. auto.
Qed.
Definition farthest (l : list ((nat -> text * text * text) * nat)) : nat := fold_right Nat.max 0 (map snd l).
Lemma sessions_known l : forall fs a, Forall (fun s => clock_ok (fst s)) l -> start fs (once eqb3 (somes (firstn a (cells V i0 i1 i2)))) ->
  exists fs', sessions V veqb fmt_in fmt_out parse cf solver i0 i1 i2 fs (once eqb3 (somes (firstn a (cells V i0 i1 i2)))) l =
    Some (fs', once eqb3 (somes (firstn (Nat.max a (farthest l)) (cells V i0 i1 i2)))) /\
    start fs' (once eqb3 (somes (firstn (Nat.max a (farthest l)) (cells V i0 i1 i2)))) /\ (l <> [] -> fs' <> None).
Proof.
  induction l as [|[clock n] l IH]; intros fs a Fc St; [exists fs; cbn; rewrite Nat.max_0_r; auto|].
  assert (Fx : Forall in3_ok (once eqb3 (somes (firstn a (cells V i0 i1 i2))))).
  { rewrite Forall_forall. intros x H. rewrite <- extend_nil in H. apply extend_In in H as [[]|H]. assert (G := firstn_Forall a). rewrite Forall_forall in G. apply G. exact H. }
  destruct (iterate_known clock fs _ n (Forall_inv Fc) St Fx) as (st & new & E & K & Cc & X). cbn [sessions]. rewrite E, Cc. rewrite X, extend_again in *. destruct K as (_ & R & O & _). rewrite O.
  destruct (IH (Some (header cf ++ text_of (rdf V st))) (Nat.max a n) (Forall_inv_tail Fc)) as (fs' & E' & S' & N'); [exists (rdf V st); auto|].
  exists fs'. replace (Nat.max a (farthest ((clock, n) :: l))) with (Nat.max (Nat.max a n) (farthest l)) by (unfold farthest; cbn [map snd fold_right]; lia). split; [exact E'|]. split; [exact S'|]. intros _.
  destruct l; [cbn in E'; injection E' as <-; discriminate|apply N'; discriminate].
Qed.
End Run.
End Loop.
