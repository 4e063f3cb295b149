(** Proofs about MiscModel: piecewise functions, lines, closest entries, report rows, scaling, basis caches. *)
From Coq Require Import List Arith ZArith QArith Qround Qabs Bool Lia Psatz.
From Verif Require Import Prelude PreludeProofs MiscModel MiscSpec.
Import ListNotations.
Local Open Scope nat_scope.

(** * genpiecewise *)
Section Piecewise.
  Variables (X Y : Type) (cast : Y -> Y).
  Fixpoint merge (mask : list bool) (ys : list Y) (out : list Y) : list Y :=
    match mask, ys, out with
    | b :: mask', y :: ys', o :: out' => (if b then y else o) :: merge mask' ys' out'
    | _, _, _ => []
    end.
  Lemma extract_cons : forall A b (x : A) mask xs,
    extract (b :: mask) (x :: xs) = if b then x :: extract mask xs else extract mask xs.
  Proof. intros. unfold extract. cbn [combine filter map fst]. destruct b; reflexivity. Qed.
  Lemma place_from_map : forall (g : X -> Y) mask xs out pre d, length xs = length mask -> length out = length mask ->
    place_from Y (length pre) (pre ++ map g (extract mask xs)) d out mask = merge mask (map g xs) out.
  Proof.
    intros g. induction mask as [|b mask IH]; intros xs out pre d Lx Lo; destruct xs as [|x xs], out as [|o out]; try discriminate.
    - reflexivity.
    - cbn [length] in Lx, Lo. rewrite extract_cons. cbn [place_from map merge]. destruct b.
      + cbn [map]. f_equal.
        * rewrite Nat.mod_small by (rewrite app_length; cbn [length]; lia).
          rewrite app_nth2, Nat.sub_diag by lia. reflexivity.
        * specialize (IH xs out (pre ++ [g x]) d ltac:(lia) ltac:(lia)).
          rewrite app_length in IH. cbn [length] in IH. rewrite Nat.add_1_r, <- app_assoc in IH. exact IH.
      + f_equal. apply IH; lia.
  Qed.
  Lemma place_from_const : forall y mask (xs : list X) out j d, length xs = length mask -> length out = length mask ->
    place_from Y j [y] d out mask = merge mask (map (fun _ => y) xs) out.
  Proof.
    intros y. induction mask as [|b mask IH]; intros xs out j d Lx Lo; destruct xs as [|x xs], out as [|o out]; try discriminate.
    - reflexivity.
    - cbn [length] in Lx, Lo. cbn [place_from map merge]. destruct b; rewrite (IH xs) by lia; [|reflexivity].
      change (length [y]) with 1. rewrite Nat.mod_1_r. reflexivity.
  Qed.
  Lemma extract_nil : forall A mask (xs : list A), length xs = length mask -> extract mask xs = [] ->
    existsb (fun b => b) mask = false.
  Proof.
    intros A. induction mask as [|b mask IH]; intros xs L E; [reflexivity|]. destruct xs as [|x xs]; [discriminate|].
    rewrite extract_cons in E. destruct b; [discriminate E|]. cbn. apply (IH xs); [injection L; auto | exact E].
  Qed.
  Lemma merge_false : forall mask ys out, length ys = length mask -> length out = length mask ->
    existsb (fun b => b) mask = false -> merge mask ys out = out.
  Proof.
    induction mask as [|b mask IH]; intros ys out Ly Lo E; destruct ys as [|y ys], out as [|o out]; try discriminate; [reflexivity|].
    cbn in E. destruct b; [discriminate E|]. cbn [merge]. f_equal. apply IH; [injection Ly; auto | injection Lo; auto | exact E].
  Qed.
  Lemma place_piece : forall (p : piece X Y) (g : X -> Y) mask (xs : list X) out, denotes p g -> length xs = length mask -> length out = length mask ->
    place Y out mask (map cast (match p with Fn _ _ F => F (extract mask xs) | Scalar _ _ y => [y] end))
    = Some (merge mask (map (fun x => cast (g x)) xs) out).
  Proof.
    intros p g mask xs out D Lx Lo. destruct p as [F | y]; cbn [denotes] in D.
    - rewrite D, map_map. unfold place. destruct (map (fun x => cast (g x)) (extract mask xs)) as [|v vs] eqn:E.
      + apply map_eq_nil in E. pose proof (extract_nil _ _ _ Lx E) as N. rewrite N. f_equal. symmetry.
        apply merge_false; [rewrite map_length; exact Lx | exact Lo | exact N].
      + rewrite <- E. f_equal. apply (place_from_map (fun x => cast (g x)) mask xs out [] v Lx Lo).
    - cbn [map place]. f_equal. rewrite (place_from_const _ mask xs out 0 _ Lx Lo). f_equal.
      apply map_ext. intros x. rewrite D. reflexivity.
  Qed.
  Lemma merge_length : forall mask ys out, length ys = length mask -> length out = length mask -> length (merge mask ys out) = length mask.
  Proof.
    induction mask as [|b mask IH]; intros ys out Ly Lo; destruct ys, out; try discriminate; [reflexivity|].
    cbn [merge length]. f_equal. apply IH; [injection Ly; auto | injection Lo; auto].
  Qed.
  Lemma merge_nth : forall mask ys out i y o, nth_error ys i = Some y -> nth_error out i = Some o -> length ys = length mask ->
    nth_error (merge mask ys out) i = Some (if nth i mask false then y else o).
  Proof.
    induction mask as [|b mask IH]; intros ys out i y o Ey Eo L; destruct ys as [|y0 ys]; try discriminate.
    - destruct i; discriminate Ey.
    - destruct out as [|o0 out]; [destruct i; discriminate Eo|]. destruct i as [|i]; cbn [nth_error merge nth] in *; [injection Ey as <-; injection Eo as <-; reflexivity|].
      apply IH; [exact Ey | exact Eo | injection L; auto].
  Qed.
  Lemma loop_value : forall xs l gs out, length out = length xs ->
    Forall (fun cp => length (fst cp) = length xs) l -> Forall2 (@denotes X Y) (map snd l) gs ->
    exists out', pieces_loop X Y cast xs l out = Some out' /\ length out' = length xs /\
      forall i x o, nth_error xs i = Some x -> nth_error out i = Some o ->
        nth_error out' i = Some (last_true (combine (map (fun cp => nth i (fst cp) false) l) (map (fun g => cast (g x)) gs)) o).
  Proof.
    intros xs. induction l as [|[cond p] l IH]; intros gs out Lo LF DF; cbn [map] in DF; inversion DF; subst.
    - exists out. split; [reflexivity|]. split; [exact Lo|]. intros i x o Ex Eo. exact Eo.
    - inversion LF as [|? ? Lc LF']; subst. cbn [fst snd] in *.
      cbn [pieces_loop]. rewrite (place_piece p y cond xs out); [|assumption | symmetry; assumption | congruence].
      destruct (IH l' (merge cond (map (fun x => cast (y x)) xs) out)) as [out' [E [L V]]]; [|assumption|assumption|].
      + rewrite merge_length; [assumption | rewrite map_length; congruence | congruence].
      + exists out'. split; [exact E|]. split; [exact L|]. intros i x o Ex Eo.
        cbn [map combine last_true fst]. apply (V i x); [exact Ex|].
        apply merge_nth; [rewrite nth_error_map, Ex; reflexivity | exact Eo | rewrite map_length; congruence].
  Qed.
  Lemma no_cond_length : forall n l, Forall (fun c : list bool => length c = n) l -> length (no_cond n l) = n.
  Proof.
    intros n. induction l as [|c l IH]; intros H; cbn [no_cond]; [apply repeat_length|]. inversion H; subst.
    rewrite map_length, combine_length, IH by assumption. apply Nat.min_id.
  Qed.
  Lemma no_cond_nth : forall n l i, Forall (fun c : list bool => length c = n) l -> i < n ->
    nth i (no_cond n l) false = forallb (fun c => negb (nth i c false)) l.
  Proof.
    intros n. induction l as [|c l IH]; intros i H L; cbn [no_cond forallb].
    - revert i L. induction n as [|n IHn]; intros i L; [lia|]. destruct i as [|i]; [reflexivity|]. cbn. apply IHn. constructor. lia.
    - inversion H; subst. rewrite <- IH by assumption. pose proof (no_cond_length _ _ H3) as N.
      rewrite (nth_indep _ false (negb false && false)) by (rewrite map_length, combine_length; lia).
      change (negb false && false) with ((fun p : bool * bool => negb (fst p) && snd p) (false, false)).
      rewrite map_nth, combine_nth by (symmetry; exact N). reflexivity.
  Qed.
  Lemma last_true_snoc : forall l b (y d : Y), last_true (l ++ [(b, y)]) d = if b then y else last_true l d.
  Proof. induction l as [|[b0 y0] l IH]; intros b y d; cbn [app last_true]; [reflexivity | apply IH]. Qed.
  Lemma last_true_none : forall l (d : Y), existsb fst l = false -> last_true l d = d.
  Proof.
    induction l as [|[b y] l IH]; intros d H; [reflexivity|]. cbn in H. destruct b; [discriminate H|]. cbn [last_true]. apply IH. exact H.
  Qed.
  Lemma last_true_some : forall l (d d' : Y), existsb fst l = true -> last_true l d = last_true l d'.
  Proof.
    induction l as [|[b y] l IH]; intros d d' H; [discriminate H|]. cbn [last_true]. cbn in H. destruct b; [reflexivity|]. apply IH. exact H.
  Qed.
  Lemma last_true_default : forall bs ys (yd d : Y), length bs = length ys ->
    last_true (combine (bs ++ [forallb negb bs]) (ys ++ [yd])) d = last_true (combine bs ys) yd.
  Proof.
    intros bs ys yd d L. assert (C : combine (bs ++ [forallb negb bs]) (ys ++ [yd]) = combine bs ys ++ [(forallb negb bs, yd)]).
    { revert ys L. generalize (forallb negb bs). induction bs as [|b bs IH]; intros q ys L; destruct ys as [|y ys]; try discriminate; [reflexivity|].
      cbn [app combine]. f_equal. apply IH. injection L; auto. }
    rewrite C, last_true_snoc.
    assert (N : forallb negb bs = negb (existsb fst (combine bs ys))).
    { clear C. revert ys L. induction bs as [|b bs IH]; intros ys L; destruct ys as [|y ys]; try discriminate; [reflexivity|].
      cbn. rewrite (IH ys) by (injection L; auto). destruct b; reflexivity. }
    rewrite N. destruct (existsb fst (combine bs ys)) eqn:E; cbn [negb].
    - apply last_true_some. exact E.
    - symmetry. apply last_true_none. exact E.
  Qed.
  Lemma map_fst_combine : forall A B C (h : A -> C) (l : list A) (m : list B), length l = length m ->
    map (fun cp => h (fst cp)) (combine l m) = map h l.
  Proof.
    intros A B C h. induction l as [|a l IH]; intros m L; destruct m; try discriminate; [reflexivity|]. cbn. f_equal. apply IH. injection L; auto.
  Qed.
  Lemma map_snd_combine : forall A B (l : list A) (m : list B), length l = length m -> map snd (combine l m) = m.
  Proof.
    intros A B. induction l as [|a l IH]; intros m L; destruct m; try discriminate; [reflexivity|]. cbn. f_equal. apply IH. injection L; auto.
  Qed.
  Lemma combine_Forall : forall A B (P : A -> Prop) (l : list A) (m : list B), Forall P l -> Forall (fun cp => P (fst cp)) (combine l m).
  Proof. intros A B P l. induction l as [|a l IH]; intros m F; destruct m; try constructor; inversion F; subst; [assumption | apply IH; assumption]. Qed.
  Lemma piecewise_fill : forall (xs : list X) conds ps gs fill, conds <> [] -> Forall (fun c => length c = length xs) conds ->
    Forall2 (@denotes X Y) ps gs -> length conds = length ps ->
    exists out, genpiecewise X Y cast xs conds ps fill = Some out /\ length out = length xs /\
      forall i x, nth_error xs i = Some x ->
        nth_error out i = Some (last_true (combine (map (fun c => nth i c false) conds) (map (fun g => cast (g x)) gs)) (cast fill)).
  Proof.
    intros xs conds ps gs fill N LF DF L. unfold genpiecewise. rewrite <- L.
    rewrite (proj2 (Nat.eqb_neq _ _)) by lia. rewrite Nat.eqb_refl. cbn [negb orb].
    destruct conds as [|c0 conds]; [congruence|]. inversion LF as [|? ? Lc LF']; subst.
    destruct (loop_value xs (combine (c0 :: conds) ps) gs (repeat (cast fill) (length c0))) as [out [E [Lo V]]].
    - rewrite repeat_length. exact Lc.
    - apply (combine_Forall _ _ (fun c => length c = length xs)). exact LF.
    - rewrite map_snd_combine by exact L. exact DF.
    - exists out. split; [exact E|]. split; [exact Lo|]. intros i x Ex. rewrite (V i x (cast fill) Ex).
      + rewrite (map_fst_combine _ _ _ (fun c => nth i c false)) by exact L. reflexivity.
      + assert (I0 : i < length xs) by (apply nth_error_Some; congruence).
        rewrite (nth_error_nth' _ (cast fill)) by (rewrite repeat_length; lia). f_equal. apply nth_repeat.
  Qed.
  Lemma piecewise_default : forall (xs : list X) conds ps pd (gs : list (X -> Y)) (gd : X -> Y) fill, conds <> [] -> Forall (fun c => length c = length xs) conds ->
    Forall2 (@denotes X Y) ps gs -> denotes pd gd -> length conds = length ps ->
    exists out, genpiecewise X Y cast xs conds (ps ++ [pd]) fill = Some out /\ length out = length xs /\
      forall i x, nth_error xs i = Some x ->
        nth_error out i = Some (last_true (combine (map (fun c => nth i c false) conds) (map (fun g => cast (g x)) gs)) (cast (gd x))).
  Proof.
    intros xs conds ps pd gs gd fill N LF DF Dd L. unfold genpiecewise. rewrite app_length. cbn [length]. rewrite <- L.
    rewrite Nat.add_1_r, Nat.eqb_refl. cbn [negb orb].
    destruct conds as [|c0 conds]; [congruence|]. inversion LF as [|? ? Lc LF']; subst. cbv iota. rewrite Lc.
    set (nc := no_cond (length xs) (c0 :: conds)).
    assert (Lnc : length nc = length xs) by (apply no_cond_length; exact LF).
    destruct (loop_value xs (combine ((c0 :: conds) ++ [nc]) (ps ++ [pd])) (gs ++ [gd]) (repeat (cast fill) (length xs))) as [out [E [Lo V]]].
    - apply repeat_length.
    - apply (combine_Forall _ _ (fun c => length c = length xs)). apply Forall_app. split; [exact LF | constructor; [exact Lnc | constructor]].
    - rewrite map_snd_combine by (rewrite !app_length; cbn [length] in *; lia). apply Forall2_app; [exact DF | constructor; [exact Dd | constructor]].
    - exists out. split; [exact E|]. split; [exact Lo|]. intros i x Ex.
      assert (I0 : i < length xs) by (apply nth_error_Some; congruence).
      rewrite (V i x (cast fill) Ex).
      + rewrite (map_fst_combine _ _ _ (fun c => nth i c false)) by (rewrite !app_length; cbn [length] in *; lia).
        rewrite !map_app. cbn [map]. unfold nc. rewrite (no_cond_nth _ _ i LF I0).
        assert (B : forallb (fun c => negb (nth i c false)) (c0 :: conds) = forallb negb (map (fun c => nth i c false) (c0 :: conds))).
        { generalize (c0 :: conds). intros l. induction l as [|a l IH]; [reflexivity|]. cbn. rewrite IH. reflexivity. }
        rewrite B. f_equal. apply last_true_default. cbn [length] in *. rewrite !map_length.
        transitivity (length ps); [exact L | clear - DF; induction DF; cbn; lia].
      + rewrite (nth_error_nth' _ (cast fill)) by (rewrite repeat_length; lia). f_equal. apply nth_repeat.
  Qed.
End Piecewise.

(** * line intersection *)
Lemma line_div : forall a1 a2 b1 b2,
  (det (fst a1 - fst a2, fst b1 - fst b2) (snd a1 - snd a2, snd b1 - snd b2) == 0)%Q <-> parallel a1 a2 b1 b2.
Proof. intros [x1 y1] [x2 y2] [x3 y3] [x4 y4]. unfold det, parallel. cbn [fst snd]. split; intros H; nra. Qed.
Lemma line_none : forall a1 a2 b1 b2, find_line_intersection a1 a2 b1 b2 = None <-> parallel a1 a2 b1 b2.
Proof.
  intros a1 a2 b1 b2. rewrite <- line_div. unfold find_line_intersection. cbv zeta.
  destruct (Qeq_bool _ 0) eqn:E.
  - apply Qeq_bool_iff in E. split; [intros _; exact E | reflexivity].
  - split; [discriminate | intros H; apply Qeq_bool_iff in H; congruence].
Qed.
Lemma line_some : forall a1 a2 b1 b2 p, find_line_intersection a1 a2 b1 b2 = Some p ->
  on_line p a1 a2 /\ on_line p b1 b2 /\
  forall q, on_line q a1 a2 -> on_line q b1 b2 -> (fst q == fst p /\ snd q == snd p)%Q.
Proof.
  intros a1 a2 b1 b2 p E.
  assert (N : ~ (det (fst a1 - fst a2, fst b1 - fst b2) (snd a1 - snd a2, snd b1 - snd b2) == 0)%Q).
  { intros H. apply line_div in H. apply line_none in H. congruence. }
  unfold find_line_intersection in E. cbv zeta in E. destruct (Qeq_bool _ 0) in E; [discriminate E|]. injection E as <-.
  destruct a1 as [x1 y1], a2 as [x2 y2], b1 as [x3 y3], b2 as [x4 y4]. unfold det, on_line in *. cbn [fst snd] in *.
  set (D := ((x1 - x2) * (y3 - y4) - (x3 - x4) * (y1 - y2))%Q) in *.
  split; [unfold D; field; exact N|]. split; [unfold D; field; exact N|].
  intros [x y] H1 H2. cbn [fst snd] in *.
  assert (Z1 : ((x - x1) * (y2 - y1) - (y - y1) * (x2 - x1) == 0)%Q) by (rewrite H1; ring).
  assert (Z2 : ((x - x3) * (y4 - y3) - (y - y3) * (x4 - x3) == 0)%Q) by (rewrite H2; ring).
  split.
  - apply (Qmult_inj_r _ _ D); [exact N|]. setoid_replace (((x1 * y2 - y1 * x2) * (x3 - x4) - (x3 * y4 - y3 * x4) * (x1 - x2)) / D * D)%Q
      with ((x1 * y2 - y1 * x2) * (x3 - x4) - (x3 * y4 - y3 * x4) * (x1 - x2))%Q by (field; exact N).
    unfold D. apply Qplus_inj_r with (- ((x1 * y2 - y1 * x2) * (x3 - x4) - (x3 * y4 - y3 * x4) * (x1 - x2)))%Q.
    rewrite Qplus_opp_r.
    transitivity (((x - x1) * (y2 - y1) - (y - y1) * (x2 - x1)) * (x3 - x4)
                  - ((x - x3) * (y4 - y3) - (y - y3) * (x4 - x3)) * (x1 - x2))%Q; [ring | rewrite Z1, Z2; ring].
  - apply (Qmult_inj_r _ _ D); [exact N|]. setoid_replace (((x1 * y2 - y1 * x2) * (y3 - y4) - (x3 * y4 - y3 * x4) * (y1 - y2)) / D * D)%Q
      with ((x1 * y2 - y1 * x2) * (y3 - y4) - (x3 * y4 - y3 * x4) * (y1 - y2))%Q by (field; exact N).
    unfold D. apply Qplus_inj_r with (- ((x1 * y2 - y1 * x2) * (y3 - y4) - (x3 * y4 - y3 * x4) * (y1 - y2)))%Q.
    rewrite Qplus_opp_r.
    transitivity (((x - x1) * (y2 - y1) - (y - y1) * (x2 - x1)) * (y3 - y4)
                  - ((x - x3) * (y4 - y3) - (y - y3) * (x4 - x3)) * (y1 - y2))%Q; [ring | rewrite Z1, Z2; ring].
Qed.

(** * take_closest *)
Lemma asc_nth : forall l i j, ascending l -> i <= j -> j < length l -> (nth i l 0 <= nth j l 0)%Q.
Proof.
  induction l as [|x l IH]; intros i j A L J; [cbn in J; lia|]. destruct A as [A A']. cbn [length] in J.
  destruct i as [|i], j as [|j]; cbn [nth]; [apply Qle_refl | apply A; apply nth_In; lia | lia | apply IH; [exact A' | lia | lia]].
Qed.
Lemma bisect_ok : forall l x, ascending l -> forall fuel lo hi, lo <= hi <= length l -> hi - lo < fuel ->
  (forall i, i < lo -> (nth i l 0 < x)%Q) -> (forall i, hi <= i -> i < length l -> (x <= nth i l 0)%Q) ->
  let p := bisect_loop fuel l x lo hi in
  p <= length l /\ (forall i, i < p -> (nth i l 0 < x)%Q) /\ (forall i, p <= i -> i < length l -> (x <= nth i l 0)%Q).
Proof.
  intros l x A. induction fuel as [|f IH]; intros lo hi B F H1 H2; [lia|]. cbn [bisect_loop].
  destruct (lo <? hi) eqn:E.
  - apply Nat.ltb_lt in E. pose proof (Nat.div_mod (lo + hi) 2 ltac:(lia)). pose proof (Nat.mod_upper_bound (lo + hi) 2 ltac:(lia)).
    set (mid := (lo + hi) / 2) in *. cbv zeta. destruct (Qle_bool x (nth mid l 0%Q)) eqn:C; cbn [negb].
    + apply Qle_bool_iff in C. apply IH; [lia | lia | exact H1|]. intros i I1 I2.
      eapply Qle_trans; [exact C|]. apply asc_nth; [exact A | lia | lia].
    + assert (C' : (nth mid l 0 < x)%Q). { apply Qnot_le_lt. intros G. apply Qle_bool_iff in G. congruence. }
      apply IH; [lia | lia | | exact H2]. intros i I1. eapply Qle_lt_trans; [|exact C']. apply asc_nth; [exact A | lia | lia].
  - apply Nat.ltb_ge in E. cbv zeta. split; [lia|]. split; [exact H1|]. intros i I1 I2. apply H2; lia.
Qed.
Lemma closest_ok : forall l x, ascending l -> l <> [] -> exists v, take_closest l x = Some v /\ closest l x v.
Proof.
  intros l x A N.
  assert (Ln : 0 < length l) by (destruct l; [congruence | cbn; lia]).
  destruct (bisect_ok l x A (S (length l)) 0 (length l)) as [P [H1 H2]]; [lia | lia | intros; lia | intros; lia|].
  change (bisect_loop (S (length l)) l x 0 (length l)) with (bisect_left l x) in *.
  unfold take_closest. set (p := bisect_left l x) in *. clearbody p.
  assert (NT : forall i, i < length l -> nth_error l i = Some (nth i l 0%Q)) by (intros; apply nth_error_nth'; lia).
  assert (K : forall w, In w l -> exists i, i < length l /\ w = nth i l 0%Q).
  { intros w X. apply (In_nth _ _ 0%Q) in X. destruct X as [i [I0 E]]. exists i. split; [exact I0 | congruence]. }
  destruct (p =? 0) eqn:E0.
  - apply Nat.eqb_eq in E0. subst p. exists (nth 0 l 0%Q). split; [apply NT; lia|]. split; [apply nth_In; lia|].
    intros w X. destruct (K w X) as [i [I0 ->]]. pose proof (H2 0 (le_n 0) Ln). pose proof (asc_nth l 0 i A ltac:(lia) I0).
    rewrite !Qabs_neg by lra. split; intros; lra.
  - apply Nat.eqb_neq in E0. destruct (p =? length l) eqn:E1.
    + apply Nat.eqb_eq in E1. exists (nth (length l - 1) l 0%Q). split; [apply NT; lia|]. split; [apply nth_In; lia|].
      intros w X. destruct (K w X) as [i [I0 ->]]. pose proof (H1 (length l - 1) ltac:(lia)). pose proof (H1 i ltac:(lia)).
      pose proof (asc_nth l i (length l - 1) A ltac:(lia) ltac:(lia)). rewrite !Qabs_pos by lra. split; intros; lra.
    + apply Nat.eqb_neq in E1. rewrite !NT by lia. set (b := nth (p - 1) l 0%Q). set (a := nth p l 0%Q).
      pose proof (H1 (p - 1) ltac:(lia)) as Hb. pose proof (H2 p (le_n p) ltac:(lia)) as Ha. fold b in Hb. fold a in Ha.
      assert (W : forall w, In w l -> (w <= b \/ a <= w)%Q).
      { intros w X. destruct (K w X) as [i [I0 ->]]. destruct (Nat.le_gt_cases p i).
        - right. apply asc_nth; [exact A | lia | lia].
        - left. apply asc_nth; [exact A | lia | lia]. }
      destruct (Qle_bool (x - b) (a - x)) eqn:C; cbn [negb].
      * apply Qle_bool_iff in C. exists b. split; [reflexivity|]. split; [apply nth_In; lia|]. intros w X.
        rewrite (Qabs_pos (x - b)) by lra. destruct (W w X) as [D | D].
        -- rewrite Qabs_pos by lra. split; intros; lra.
        -- rewrite Qabs_neg by lra. split; intros; lra.
      * assert (C' : (a - x < x - b)%Q). { apply Qnot_le_lt. intros G. apply Qle_bool_iff in G. congruence. }
        exists a. split; [reflexivity|]. split; [apply nth_In; lia|]. intros w X.
        rewrite (Qabs_neg (x - a)) by lra. destruct (W w X) as [D | D].
        -- rewrite Qabs_pos by lra. split; intros; lra.
        -- rewrite Qabs_neg by lra. split; intros; lra.
Qed.

(** * report rows *)
Lemma increasing_map_seq : forall f n s, (forall i j, s <= i -> i < j -> j < s + n -> f i < f j) -> increasing (map f (seq s n)).
Proof.
  intros f. induction n as [|n IH]; intros s H; cbn [seq map increasing]; [exact Logic.I|]. split.
  - intros y Y. apply in_map_iff in Y. destruct Y as [j [<- J]]. apply in_seq in J. apply H; lia.
  - apply IH. intros i j I1 I2 I3. apply H; lia.
Qed.
Lemma increasing_app : forall l m, increasing l -> increasing m -> (forall x y, In x l -> In y m -> x < y) -> increasing (l ++ m).
Proof.
  induction l as [|a l IH]; intros m A B C; cbn [app]; [exact B|]. destruct A as [A A']. split.
  - intros y Y. apply in_app_or in Y. destruct Y as [Y | Y]; [apply A; exact Y | apply C; [left; reflexivity | exact Y]].
  - apply IH; [exact A' | exact B|]. intros x y X Y. apply C; [right; exact X | exact Y].
Qed.
Lemma rows_ok : forall N m k l, select_rows N m k = Some l ->
  increasing l /\ (forall i, In i l -> i < N) /\ length l = Nat.min m N /\ (0 < N -> In 0 l) /\ (forall i, i < N -> N <= i + k -> In i l).
Proof.
  intros N m k l E. unfold select_rows in E. destruct (10 <=? m) eqn:M; cbn [negb] in E; [|discriminate E].
  apply Nat.leb_le in M. destruct ((1 <=? k) && (k <? m)) eqn:K; cbn [negb] in E; [|discriminate E].
  apply andb_true_iff in K. destruct K as [K1 K2]. apply Nat.leb_le in K1. apply Nat.ltb_lt in K2.
  injection E as <-. destruct (m <? N) eqn:L.
  - apply Nat.ltb_lt in L. set (d := m - k). set (D := N - k). assert (Dd : 0 < d /\ d <= D) by (unfold d, D; lia).
    assert (Mono : forall i j, i < j -> i * D / d < j * D / d).
    { intros i j H. apply Nat.lt_le_trans with ((i * D + 1 * d) / d); [rewrite Nat.div_add by lia; lia|].
      apply Nat.div_le_mono; [lia|]. nia. }
    assert (Top : forall i, i <= d -> i * D / d <= D).
    { intros i H. apply Nat.div_le_upper_bound; [lia|]. nia. }
    split; [|split; [|split; [|split]]].
    + apply increasing_app.
      * apply increasing_map_seq. intros i j _ H _. apply Mono. exact H.
      * apply increasing_map_seq. intros i j _ H _. lia.
      * intros x y X Y. apply in_map_iff in X. destruct X as [i [<- I0]]. apply in_map_iff in Y. destruct Y as [j [<- J]].
        apply in_seq in I0. apply in_seq in J. specialize (Top i ltac:(unfold d; lia)). unfold D in *. lia.
    + intros x X. apply in_app_or in X. destruct X as [X | X]; apply in_map_iff in X; destruct X as [i [<- I0]]; apply in_seq in I0.
      * specialize (Top i ltac:(unfold d; lia)). unfold D in *. lia.
      * lia.
    + rewrite app_length, !map_length, !seq_length. lia.
    + intros _. apply in_or_app. left. apply in_map_iff. exists 0. split; [apply Nat.div_0_l; lia | apply in_seq; lia].
    + intros i I1 I2. apply in_or_app. destruct (Nat.eq_dec i D) as [->|NE].
      * left. apply in_map_iff. exists d. split; [rewrite Nat.mul_comm; apply Nat.div_mul; lia | apply in_seq; unfold d; lia].
      * right. apply in_map_iff. exists (i - (N + 1 - k)). unfold D in NE. split; [lia | apply in_seq; lia].
  - apply Nat.ltb_ge in L. split; [|split; [|split; [|split]]].
    + rewrite <- (map_id (seq 0 N)). apply increasing_map_seq. intros; lia.
    + intros i I0. apply in_seq in I0. lia.
    + rewrite seq_length. lia.
    + intros H. apply in_seq. lia.
    + intros i H _. apply in_seq. lia.
Qed.

(** * scaling *)
Section Scaling.
  Variables (X Y : Type) (mul : Y -> Y -> Y).
  Definition sstep (st : scalings X Y) (op : sop X Y) : scalings X Y :=
    match op with New C => new_scaling X Y st C | Call o f => call_scaling X Y st o f end.
  Lemma call_nth : forall st o f i, nth_error (call_scaling X Y st o f) i =
    match nth_error st i with Some (C, g) => Some (C, if i =? o then Some f else g) | None => None end.
  Proof.
    induction st as [|[C g] st IH]; intros o f i; [destruct i; reflexivity|].
    destruct o as [|o], i as [|i]; cbn [call_scaling nth_error Nat.eqb]; try reflexivity; [|apply IH].
    destruct (nth_error st i) as [[? ?]|]; reflexivity.
  Qed.
  Lemma scaling_keeps : forall ops st o C f x, nth_error st o = Some (C, Some f) ->
    (forall o' f', In (Call o' f') ops -> o' <> o) ->
    scaled_func X Y mul (fold_left sstep ops st) o x = Some (mul C (f x)).
  Proof.
    induction ops as [|op ops IH]; intros st o C f x E H; cbn [fold_left].
    - unfold scaled_func. rewrite E. reflexivity.
    - apply IH; [|intros o' f' X0; apply (H o' f'); right; exact X0]. destruct op as [C0 | o' f']; cbn [sstep].
      + unfold new_scaling. rewrite nth_error_app1; [exact E|]. apply nth_error_Some. congruence.
      + rewrite call_nth, E. rewrite (proj2 (Nat.eqb_neq _ _)); [reflexivity|]. intros X0. apply (H o' f' (or_introl eq_refl)). congruence.
  Qed.
  Lemma scaling_last : forall ops st o C g f x, nth_error st o = Some (C, g) ->
    (forall o' f', In (Call o' f') ops -> o' <> o) ->
    scaled_func X Y mul (fold_left sstep ops (sstep st (Call o f))) o x = Some (mul C (f x)).
  Proof.
    intros ops st o C g f x E H. apply scaling_keeps; [|exact H]. cbn [sstep]. rewrite call_nth, E, Nat.eqb_refl. reflexivity.
  Qed.
End Scaling.

(** * basis caches *)
Section BasisCache.
  Variables (V B : Type) (veqb : V -> V -> bool) (basis : V -> B).
  Hypothesis veqb_eq : forall v w, veqb v w = true -> v = w.
  Lemma cache_ok : forall ops st seen,
    (match cached V B st with Some (b, r) => In b seen /\ r = basis (heap V B st b) | None => True end) ->
    clean seen ops -> brun V B veqb basis st ops = fresh_run basis (heap V B st) ops.
  Proof.
    induction ops as [|[a v|a] ops IH]; intros st seen I0 C; [reflexivity| |]; cbn [brun bstep fresh_run clean] in *.
    - destruct C as [C1 C2]. f_equal.
      apply (IH (mkB V B (fun b => if b =? a then v else heap V B st b) (cached V B st)) seen); [|exact C2]. cbn [cached heap].
      destruct (cached V B st) as [[b r]|]; [|exact Logic.I]. destruct I0 as [Ib ->]. split; [exact Ib|].
      destruct (b =? a) eqn:E; [apply Nat.eqb_eq in E; subst b; contradiction | reflexivity].
    - destruct (cached V B st) as [[b r]|] eqn:E.
      + destruct I0 as [Ib Er]. destruct (veqb (heap V B st a) (heap V B st b)) eqn:Q0.
        * apply veqb_eq in Q0. rewrite Q0, <- Er. f_equal. apply (IH _ (a :: seen)); [|exact C]. rewrite E.
          split; [right; exact Ib | exact Er].
        * f_equal. apply (IH (mkB V B (heap V B st) (Some (a, basis (heap V B st a)))) (a :: seen)); [|exact C].
          cbn [cached heap]. split; [left; reflexivity | reflexivity].
      + f_equal. apply (IH (mkB V B (heap V B st) (Some (a, basis (heap V B st a)))) (a :: seen)); [|exact C].
        cbn [cached heap]. split; [left; reflexivity | reflexivity].
  Qed.
  (** evaluating, changing and evaluating the same array gives the old values *)
  Lemma cache_stale : (forall v, veqb v v = true) -> forall h v w,
    brun V B veqb basis (mkB V B h None) [Assign _ 0 v; Eval _ 0; Assign _ 0 w; Eval _ 0] = [None; Some (basis v); None; Some (basis v)].
  Proof. intros R h v w. cbn. rewrite R. reflexivity. Qed.
End BasisCache.
Lemma cache_fresh : forall V B (veqb : V -> V -> bool) (basis : V -> B), (forall v w, veqb v w = true -> v = w) ->
  forall ops h, clean [] ops -> brun V B veqb basis (mkB V B h None) ops = fresh_run basis h ops.
Proof. intros V B veqb basis E ops h C. apply (cache_ok V B veqb basis E ops (mkB V B h None) []); [exact Logic.I | exact C]. Qed.
Lemma cache_stale_neq : forall V B (veqb : V -> V -> bool) (basis : V -> B), (forall v, veqb v v = true) ->
  forall h v w, basis v <> basis w ->
  brun V B veqb basis (mkB V B h None) [Assign _ 0 v; Eval _ 0; Assign _ 0 w; Eval _ 0]
  <> fresh_run basis h [Assign _ 0 v; Eval _ 0; Assign _ 0 w; Eval _ 0].
Proof.
  intros V B veqb basis R h v w N. rewrite cache_stale by exact R. cbn. intros E. apply N. congruence.
Qed.
Lemma refine_iff : forall px py pz a b c, refine_degrees px py pz (a, b, c) = (px + a, py + b, pz + c) <-> a = b /\ a = c.
Proof.
  intros. unfold refine_degrees. split.
  - intros E. injection E as E1 E2. lia.
  - intros [-> ->]. reflexivity.
Qed.
