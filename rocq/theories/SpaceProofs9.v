(** The discrete Gauss theorem: what leaves the cells leaves the element. *)
From Coq Require Import List Arith ZArith Lia Bool Ring.
From Verif Require Import Prelude PreludeProofs RingSum SpaceModel SpaceSpec SpaceProofs SpaceProofs2 SpaceProofs3 SpaceProofs4 SpaceProofs5
  SpaceProofs6 SpaceProofs8.
Import ListNotations.

Section Gauss.
  Variable K : CRing.
  Add Ring Kr9 : (Rth K).
  Local Open Scope ring_s.
  Lemma bsum_tele n (f : nat -> K) : bsum (seq 0 n) (fun i => f (i + 1)%nat - f i) = f n - f 0%nat.
  Proof.
    induction n as [|n IH]; [cbn [seq]; rewrite bsum_nil; ring|]. rewrite bsum_seq_S, IH.
    rewrite Nat.add_1_r. ring.
  Qed.
  Lemma bsum_prod3 l0 l1 l2 (f : list nat -> K) :
    bsum (prod_idx [l0; l1; l2]) f = bsum l2 (fun k => bsum l1 (fun j => bsum l0 (fun i => f [i; j; k]))).
  Proof.
    cbn [prod_idx flat_map]. rewrite app_nil_r. rewrite !bsum_flat_map. rewrite bsum_map.
    apply bsum_ext. intros k _. rewrite bsum_map. apply bsum_ext. intros j _. rewrite bsum_map. reflexivity.
  Qed.
  Context (px py pz : nat) (Fp : Forall (fun n => (1 <= n)%nat) [px; py; pz]).
  Notation p := [px; py; pz].
  Lemma side_sum s t ls (U : cell -> K) : length t = 3%nat -> touches s t = true -> filter (touches s) faces3 = [t] ->
    idxss (side_sel 3 s) (sizes p t) = Some ls ->
    bsum (scells p faces3 s) U = bsum (prod_idx ls) (fun i => U (combine t i)).
  Proof.
    intros Lt Ht Hf El. unfold scells. rewrite filter_side_cells by apply (faces3_ok px py pz). rewrite Hf. cbn [flat_map]. rewrite app_nil_r.
    destruct (idxss_grid (side_sel 3 s) (sizes p t)) as (ls' & E' & Ep); [rewrite length_sizes by assumption; reflexivity|apply sizes_pos; assumption|].
    rewrite El in E'. injection E' as <-. rewrite Ep. unfold cells_t. rewrite filter_map, bsum_map.
    rewrite (filter_ext_in (fun i => on_side p s (combine t i)) (selb (side_sel 3 s) (sizes p t)) (grid (sizes p t))); [reflexivity|].
    intros i Hi. apply in_grid in Hi. apply side_sel_selb; assumption.
  Qed.
  Lemma gauss3 : exists E T, E32 p = Some E /\ trace2 outward p = Some T /\
    forall u : nat -> K,
    bsum (seq 0 (length (cells p volumes3))) (apply_mat (length (cells p faces3)) E u) =
    bsum (seq 0 (length (on_sides p faces3 sides3))) (apply_mat (length (cells p faces3)) T u).
  Proof.
    destruct (E32_acts K px py pz) as (E & EE & HE). destruct (trace2_ok px py pz Fp outward) as (T & ET & HT).
    exists E, T. split; [exact EE|]. split; [exact ET|]. intros u.
    set (U := fun c => u (pos (cells p faces3) c)).
    assert (Nf := NoDup_cells p faces3 (faces3_ok px py pz)).
    transitivity (bsum sides3 (fun s => zmul (outward s) (bsum (scells p faces3 s) U))).
    - rewrite bsum_pos by (apply NoDup_cells, volumes3_ok).
      assert (EV : cells p volumes3 = map (combine [true; true; true]) (prod_idx [seq 0 px; seq 0 py; seq 0 pz])) by apply app_nil_r.
      assert (G : bsum (cells p volumes3) (fun t => apply_mat (length (cells p faces3)) E u (pos (cells p volumes3) t)) =
        bsum (prod_idx [seq 0 px; seq 0 py; seq 0 pz]) (fun i =>
          bsum (row_cells faces3 (nth 0 tab32 []) i) (fun cv => zmul (snd cv) (U (fst cv))))).
      { rewrite EV at 1. rewrite bsum_map. apply bsum_ext. intros i Hi. apply (HE 0%nat [true; true; true] (nth 0 tab32 []) i eq_refl eq_refl).
        change (prod_idx [seq 0 px; seq 0 py; seq 0 pz]) with (all_idx p) in Hi. rewrite grid_all_idx in Hi. apply in_grid in Hi. exact Hi. }
      rewrite G. rewrite bsum_prod3.
      rewrite (bsum_ext _ (seq 0 pz) _ (fun k =>
        bsum (seq 0 py) (fun j => U [(false, px); (true, j); (true, k)] - U [(false, 0%nat); (true, j); (true, k)]) +
        bsum (seq 0 px) (fun i => U [(true, i); (false, py); (true, k)] - U [(true, i); (false, 0%nat); (true, k)]) +
        bsum (seq 0 py) (fun j => bsum (seq 0 px) (fun i => U [(true, i); (true, j); (false, (k + 1)%nat)] - U [(true, i); (true, j); (false, k)])))).
      2:{ intros k _.
          transitivity (bsum (seq 0 py) (fun j =>
            bsum (seq 0 px) (fun i => U [(false, (i + 1)%nat); (true, j); (true, k)] - U [(false, i); (true, j); (true, k)]) +
            bsum (seq 0 px) (fun i => U [(true, i); (false, (j + 1)%nat); (true, k)] - U [(true, i); (false, j); (true, k)]) +
            bsum (seq 0 px) (fun i => U [(true, i); (true, j); (false, (k + 1)%nat)] - U [(true, i); (true, j); (false, k)]))).
          - apply bsum_ext. intros j _. rewrite <- !bsum_plus. apply bsum_ext. intros i _.
            cbn [nth tab32 row_cells flat_map nth_error fst snd bump upd combine app faces3].
            rewrite !bsum_cons, bsum_nil. cbn [fst snd]. rewrite !(zmul_1 K), !(zmul_m1 K). ring.
          - rewrite !bsum_plus. f_equal. f_equal.
            + apply bsum_ext. intros j _. apply (bsum_tele px (fun i => U [(false, i); (true, j); (true, k)])).
            + rewrite bsum_swap. apply bsum_ext. intros i _. apply (bsum_tele py (fun j => U [(true, i); (false, j); (true, k)])). }
      rewrite !bsum_plus.
      assert (Z : bsum (seq 0 pz) (fun k => bsum (seq 0 py) (fun j => bsum (seq 0 px) (fun i =>
          U [(true, i); (true, j); (false, (k + 1)%nat)] - U [(true, i); (true, j); (false, k)]))) =
        bsum (seq 0 py) (fun j => bsum (seq 0 px) (fun i => U [(true, i); (true, j); (false, pz)] - U [(true, i); (true, j); (false, 0%nat)]))).
      { rewrite bsum_swap. apply bsum_ext. intros j _. rewrite bsum_swap. apply bsum_ext. intros i _.
        apply (bsum_tele pz (fun k => U [(true, i); (true, j); (false, k)])). }
      rewrite Z. unfold sides3. rewrite !bsum_cons, bsum_nil.
      rewrite (side_sum (0%nat, false) [false; true; true] [[0%nat]; seq 0 py; seq 0 pz] U) by reflexivity.
      rewrite (side_sum (0%nat, true) [false; true; true] [[px]; seq 0 py; seq 0 pz] U) by (cbn; rewrite ?Nat.sub_0_r; reflexivity).
      rewrite (side_sum (1%nat, false) [true; false; true] [seq 0 px; [0%nat]; seq 0 pz] U) by reflexivity.
      rewrite (side_sum (1%nat, true) [true; false; true] [seq 0 px; [py]; seq 0 pz] U) by (cbn; rewrite ?Nat.sub_0_r; reflexivity).
      rewrite (side_sum (2%nat, false) [true; true; false] [seq 0 px; seq 0 py; [0%nat]] U) by reflexivity.
      rewrite (side_sum (2%nat, true) [true; true; false] [seq 0 px; seq 0 py; [pz]] U) by (cbn; rewrite ?Nat.sub_0_r; reflexivity).
      rewrite !bsum_prod3. cbn [outward snd combine]. rewrite !(zmul_1 K), !(zmul_m1 K).
      rewrite !(bsum_cons K), !(bsum_nil K).
      assert (S1 : forall x, bsum (seq 0 pz) (fun k => bsum (seq 0 py) (fun j => bsum [x] (fun i => U [(false, i); (true, j); (true, k)]))) =
        bsum (seq 0 pz) (fun k => bsum (seq 0 py) (fun j => U [(false, x); (true, j); (true, k)]))).
      { intros x. apply bsum_ext. intros k _. apply bsum_ext. intros j _. rewrite bsum_cons, bsum_nil. ring. }
      assert (S2 : forall x, bsum (seq 0 pz) (fun k => bsum [x] (fun j => bsum (seq 0 px) (fun i => U [(true, i); (false, j); (true, k)]))) =
        bsum (seq 0 pz) (fun k => bsum (seq 0 px) (fun i => U [(true, i); (false, x); (true, k)]))).
      { intros x. apply bsum_ext. intros k _. rewrite bsum_cons, bsum_nil. ring. }
      rewrite !S1, !S2.
      rewrite (bsum_ext _ (seq 0 pz) (fun a => bsum (seq 0 py) (fun j => U [(false, px); (true, j); (true, a)] - U [(false, 0%nat); (true, j); (true, a)])) _
        (fun k _ => bsum_minus _ (seq 0 py) _ _)).
      rewrite (bsum_ext _ (seq 0 pz) (fun a => bsum (seq 0 px) (fun i => U [(true, i); (false, py); (true, a)] - U [(true, i); (false, 0%nat); (true, a)])) _
        (fun k _ => bsum_minus _ (seq 0 px) _ _)).
      rewrite (bsum_ext _ (seq 0 py) (fun j => bsum (seq 0 px) (fun i => U [(true, i); (true, j); (false, pz)] - U [(true, i); (true, j); (false, 0%nat)])) _
        (fun k _ => bsum_minus _ (seq 0 px) _ _)).
      rewrite !bsum_minus. ring.
    - assert (Row : forall r s x, nth_error (on_sides p faces3 sides3) r = Some (s, x) ->
        apply_mat (length (cells p faces3)) T u r = zmul (outward s) (U x)).
      { intros r s x Hr. assert (Hx : In x (cells p faces3)).
        { apply (on_sides_in p faces3 sides3 (s, x)). eapply nth_error_In. eassumption. }
        eapply restricts_apply; [exact Nf|exact HT|exact Hr|]. apply pos_nth. assumption. }
      transitivity (bsum (on_sides p faces3 sides3) (fun sx => zmul (outward (fst sx)) (U (snd sx)))).
      + unfold on_sides at 1. rewrite bsum_flat_map. apply bsum_ext. intros s _. rewrite bsum_map. cbn [fst snd]. fold (scells p faces3 s).
        clear. destruct s as [a e]. unfold outward. cbn [snd]. destruct e; rewrite ?zmul_1, ?zmul_m1.
        * apply bsum_ext. intros. rewrite zmul_1. reflexivity.
        * rewrite <- bsum_opp. apply bsum_ext. intros. rewrite zmul_m1. reflexivity.
      + revert Row. generalize (apply_mat (length (cells p faces3)) T u). intros g Row.
        assert (Gen : forall l off, (forall r s x, nth_error l r = Some (s, x) -> g (off + r)%nat = zmul (outward s) (U x)) ->
          bsum l (fun sx => zmul (outward (fst sx)) (U (snd sx))) = bsum (seq off (length l)) g).
        { induction l as [|[s x] l IH]; intros off H; [reflexivity|]. cbn [length seq]. rewrite !bsum_cons. cbn [fst snd].
          rewrite <- (H 0%nat s x eq_refl), Nat.add_0_r. f_equal. apply IH. intros r s' x' Hr.
          rewrite <- (H (S r) s' x' Hr). f_equal. lia. }
        apply Gen. exact Row.
  Qed.
End Gauss.
Lemma cells_all3 px py pz ts : In ts [nodes3; edges3; faces3; volumes3] ->
  NoDup (cells [px; py; pz] ts) /\ forall c, In c (cells [px; py; pz] ts) <-> exists t, In t ts /\ is_cell [px; py; pz] t c.
Proof.
  intros H. apply cells_all. cbn [In] in H. repeat destruct H as [<-|H]; try contradiction;
    [apply nodes3_ok|apply edges3_ok|apply faces3_ok|apply volumes3_ok].
Qed.
Lemma traceO_signs px py : Forall (fun n => 1 <= n) [px; py] ->
  exists M, traceO [px; py] = Some M /\ restricts (on_sides [px; py] edges2_outer sides2) (cells [px; py] edges2_outer)
    (fun s => if Nat.eqb (fst s) 0 then (- outward_sign s)%Z else outward_sign s) M.
Proof.
  intros F. destruct (traceO_ok px py F) as (M & E & H). exists M. split; [exact E|]. intros r c. rewrite H.
  destruct (nth_error (on_sides [px; py] edges2_outer sides2) r) as [[s x]|]; [|reflexivity].
  destruct (nth_error (cells [px; py] edges2_outer) c); [|reflexivity]. destruct s as [[|a] [|]]; reflexivity.
Qed.
Lemma internal_ok px py pz : Forall (fun n => 1 <= n) [px; py; pz] -> let p := [px; py; pz] in
  let right ts l := NoDup l /\ forall n, In n l <-> exists c, nth_error (cells p ts) n = Some c /\ on_surface p c = false in
  (exists l, internal0 p = Some l /\ right nodes3 l) /\ (exists l, internal1 p = Some l /\ right edges3 l) /\
  (p <> [1; 1; 1] -> exists l, internal2 p = Some l /\ right faces3 l).
Proof.
  intros F. cbv zeta. split; [|split].
  - eexists. split; [apply internal0_ok; exact F|]. apply inner_numbers; [apply nodes3_ok|reflexivity].
  - eexists. split; [apply internal1_ok; exact F|]. apply inner_numbers; [apply edges3_ok|reflexivity].
  - intros N. eexists. split; [apply internal2_ok; assumption|]. apply inner_numbers; [apply faces3_ok|reflexivity].
Qed.
Lemma gauss2_false : ~ (forall px py, Forall (fun n => 1 <= n) [px; py] -> let p := [px; py] in
  forall E T, EO21 p = Some E -> traceO p = Some T -> forall u : nat -> ZR,
  bsum (seq 0 (length (cells p faces2))) (apply_mat (length (cells p edges2_outer)) E u) =
  bsum (seq 0 (length (on_sides p edges2_outer sides2))) (apply_mat (length (cells p edges2_outer)) T u)).
Proof.
  intros H. specialize (H 1 1 ltac:(repeat constructor)). cbv zeta in H.
  destruct (EO21 [1; 1]) as [E|] eqn:EE; [|vm_compute in EE; discriminate].
  destruct (traceO [1; 1]) as [T|] eqn:ET; [|vm_compute in ET; discriminate].
  specialize (H E T eq_refl eq_refl (fun i => if i =? 0 then 1%Z else 0%Z)).
  vm_compute in EE. injection EE as <-. vm_compute in ET. injection ET as <-. vm_compute in H. discriminate.
Qed.
