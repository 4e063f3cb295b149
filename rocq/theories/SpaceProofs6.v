(** 1-traces, the 2D trace, edge matrices, interior dofs. *)
From Coq Require Import List Arith ZArith Lia Bool.
From Verif Require Import Prelude PreludeProofs SpaceModel SpaceSpec SpaceProofs SpaceProofs2 SpaceProofs4 SpaceProofs5.
Import ListNotations.

(** assigning to rows off .. of the columns of the listed cells *)
Definition row_writes (cs : list cell) (v : Z) (off : nat) (l : list cell) : list write :=
  map (fun x => (snd x, pos cs (fst x), v)) (combine l (seq off (length l))).
Lemma assign_rows cs v off l n : n = length l ->
  assign (Some (seq off n)) (Some (map (pos cs) l)) v = Some (row_writes cs v off l).
Proof.
  intros ->. unfold assign. rewrite seq_length, map_length, Nat.eqb_refl. f_equal. unfold row_writes.
  rewrite combine_map_r, map_map. rewrite (combine_swap l), map_map. reflexivity.
Qed.
Lemma row_writes_app cs v off l1 l2 :
  row_writes cs v off l1 ++ row_writes cs v (off + length l1) l2 = row_writes cs v off (l1 ++ l2).
Proof.
  unfold row_writes. rewrite <- map_app, app_length, seq_app, combine_app; [reflexivity|rewrite seq_length; reflexivity].
Qed.
Lemma build_rows cs v l n : n = length l -> (forall x, In x l -> In x cs) ->
  exists B, build n (length cs) (row_writes cs v 0 l) = Some B /\
    forall r c, B r c = match nth_error l r with Some x => if c =? pos cs x then v else 0%Z | None => 0%Z end.
Proof.
  intros -> H. rewrite build_ok.
  - eexists. split; [reflexivity|]. intros r c. rewrite fold_setm.
    apply (lastw_row l (pos cs) (fun _ => v)).
  - intros r c w Hi. apply in_map_iff in Hi. destruct Hi as ([x k] & E & Hi). injection E as <- <- <-.
    apply in_combine_seq in Hi. cbn [fst snd]. split; [apply nth_error_Some; congruence|].
    apply pos_lt, H. eapply nth_error_In. eassumption.
Qed.
Lemma all_some_keys {A B} (f : A -> option B) l (P : A -> B -> Prop) : (forall a, In a l -> exists b, f a = Some b /\ P a b) ->
  exists g, all_some (map f l) = Some g /\ Forall2 P l g.
Proof.
  induction l as [|a l IH]; intros H; [exists []; split; [reflexivity|constructor]|].
  destruct (H a) as (b & Eb & Pb); [left; reflexivity|]. destruct IH as (g & Eg & Pg); [intros; apply H; right; assumption|].
  exists (b :: g). cbn [map all_some]. rewrite Eb, Eg. split; [reflexivity|constructor; assumption].
Qed.
(** stacking blocks each of which picks the cells of its key *)
Lemma stack_ok {A} (keys : list A) (num : A -> option nat) (blk : A -> nat -> option (nat -> nat -> Z))
  (S_ : A -> list cell) cs sg : NoDup cs -> (forall k x, In x (S_ k) -> In x cs) ->
  (forall k, In k keys -> num k = Some (length (S_ k)) /\ exists B, blk k (length (S_ k)) = Some B /\
     forall r c, B r c = match nth_error (S_ k) r with Some x => if c =? pos cs x then sg k else 0%Z | None => 0%Z end) ->
  exists bs, all_some (map (fun k => match num k with Some n => option_map (pair n) (blk k n) | None => None end) keys) = Some bs /\
    restricts (flat_map (fun k => map (pair k) (S_ k)) keys) cs sg (vstack bs).
Proof.
  intros N H HB.
  destruct (all_some_keys (fun k => match num k with Some n => option_map (pair n) (blk k n) | None => None end) keys
    (fun k b => fst b = length (S_ k) /\ forall r c, snd b r c =
      match nth_error (S_ k) r with Some x => if c =? pos cs x then sg k else 0%Z | None => 0%Z end)) as (bs & Eb & F).
  { intros k Hk. destruct (HB k Hk) as (En & B & EB & Hv). rewrite En, EB. eexists. split; [reflexivity|]. split; [reflexivity|exact Hv]. }
  exists bs. split; [exact Eb|]. clear Eb HB. apply restricts_of; [assumption| |].
  - intros x Hx. apply in_flat_map in Hx. destruct Hx as (k & Hk & Hx). apply in_map_iff in Hx.
    destruct Hx as (y & <- & Hy). apply (H k y Hy).
  - intros r c. revert r. induction F as [|k [n B] keys bs [En HB] F IH]; intros r; [destruct r; reflexivity|].
    cbn [fst snd] in *. subst n. cbn [vstack flat_map].
    destruct (Nat.ltb_spec r (length (S_ k))) as [L|L].
    + rewrite HB. rewrite nth_error_app1 by (rewrite map_length; assumption).
      rewrite nth_error_map. destruct (nth_error (S_ k) r); reflexivity.
    + rewrite IH. rewrite nth_error_app2; rewrite map_length; [reflexivity|assumption].
Qed.

Section Three.
  Context (px py pz : nat) (Fp : Forall (fun n => 1 <= n) [px; py; pz]).
  Notation p := [px; py; pz].
  Lemma block1_gen sg s a b c0 c1 t0 t1 :
    lnt1 p s = number_from 0 [a * (b + 1); (a + 1) * b] [[a; b + 1]; [a + 1; b]] -> tang s = [c0; c1] ->
    nth_error edges3 c0 = Some t0 -> nth_error edges3 c1 = Some t1 -> filter (touches s) edges3 = [t0; t1] ->
    length (filter (on_side p s) (cells_t p t0)) = a * (b + 1) ->
    length (filter (on_side p s) (cells_t p t1)) = (a + 1) * b ->
    exists B, block1 sg p s (length (scells p edges3 s)) = Some B /\
      forall r c, B r c = match nth_error (scells p edges3 s) r with
                          | Some x => if c =? pos (cells p edges3) x then sg s else 0%Z | None => 0%Z end.
  Proof.
    intros El Et H0 H1 Hf L0 L1. unfold block1. rewrite numbering_ok, El, Et, shapes1_3.
    replace [a * (b + 1); (a + 1) * b] with (nbc [[a; b + 1]; [a + 1; b]]) by (cbn; f_equal; [lia|f_equal; lia]).
    rewrite number_from_ok. cbn [arrs_from combine map fst snd].
    destruct (arrs_ex 0 (map (sizes p) edges3) c0 (sizes p t0)) as (a0 & Ha0 & _); [rewrite nth_error_map, H0; reflexivity|].
    destruct (arrs_ex 0 (map (sizes p) edges3) c1 (sizes p t1)) as (a1 & Ha1 & _); [rewrite nth_error_map, H1; reflexivity|].
    change (list bool) with ctype in *. rewrite Ha0, Ha1.
    assert (Hi0 : touches s t0 = true).
    { assert (In t0 (filter (touches s) edges3)) as Hi by (rewrite Hf; left; reflexivity). apply filter_In in Hi. apply Hi. }
    assert (Hi1 : touches s t1 = true).
    { assert (In t1 (filter (touches s) edges3)) as Hi by (rewrite Hf; right; left; reflexivity). apply filter_In in Hi. apply Hi. }
    rewrite (ravel_side p edges3 c0 a0 t0 s (edges3_ok _ _ _) Fp Ha0 H0 Hi0).
    rewrite (ravel_side p edges3 c1 a1 t1 s (edges3_ok _ _ _) Fp Ha1 H1 Hi1).
    rewrite (ravel_all 0 [a; b + 1] : ravel _ [All; All] = _), (ravel_all (0 + prodl [a; b + 1]) [a + 1; b] : ravel _ [All; All] = _).
    assert (P0 : prodl [a; b + 1] = a * (b + 1)) by (cbn; lia). assert (P1 : prodl [a + 1; b] = (a + 1) * b) by (cbn; lia).
    rewrite P0, P1, !assign_rows by (symmetry; assumption). rewrite !concat_some_cons. cbn [concat_some all_some option_map concat].
    rewrite app_nil_r, <- L0, row_writes_app.
    assert (ES : scells p edges3 s = filter (on_side p s) (cells_t p t0) ++ filter (on_side p s) (cells_t p t1)).
    { unfold scells. rewrite filter_side_cells by apply (edges3_ok px py pz). rewrite Hf. cbn [flat_map]. rewrite app_nil_r. reflexivity. }
    rewrite <- ES, nb_ok. apply build_rows; [reflexivity|]. apply scells_in.
  Qed.
  Ltac len_t := erewrite (len_side px py pz Fp); [| reflexivity | reflexivity |
       cbn [side_sel map seq Nat.eqb fst snd sizes size idxss idxs]; cbn [option_map map]; rewrite ?seq_length; cbn [length prodl fold_right];
       rewrite ?seq_length; reflexivity]; lia.
  Lemma block1_ok sg s : In s NSWEBF ->
    exists B, block1 sg p s (length (scells p edges3 s)) = Some B /\
      forall r c, B r c = match nth_error (scells p edges3 s) r with
                          | Some x => if c =? pos (cells p edges3) x then sg s else 0%Z | None => 0%Z end.
  Proof.
    intros H. cbn in H. repeat destruct H as [<-|H]; try contradiction;
      (eapply block1_gen; [reflexivity|reflexivity|reflexivity|reflexivity|reflexivity|len_t|len_t]).
  Qed.
  Lemma trace1_ok sg : exists M, trace1 sg p = Some M /\ restricts (on_sides p edges3 sides3) (cells p edges3) sg M.
  Proof.
    unfold trace1. rewrite <- (len1 px py pz Fp).
    assert (E : combine NSWEBF (map (fun s => length (scells p edges3 s)) NSWEBF) =
                map (fun s => (s, length (scells p edges3 s))) NSWEBF) by reflexivity.
    rewrite E, map_map. cbn [fst snd].
    destruct (stack_ok NSWEBF (fun s => Some (length (scells p edges3 s))) (fun s n => block1 sg p s n) (scells p edges3)
      (cells p edges3) sg) as (bs & Eb & Hb).
    - apply NoDup_cells, edges3_ok.
    - apply scells_in.
    - intros k Hk. split; [reflexivity|]. apply block1_ok. assumption.
    - rewrite Eb. eexists. split; [reflexivity|]. exact Hb.
  Qed.

  (** ** edges *)
  Definition ecells (ts : list ctype) (e : (nat * bool) * (nat * bool)) : list cell := filter (on_edge p e) (cells p ts).
  (** the index of an edge selects the cells on its two sides *)
  Definition esel (e : (nat * bool) * (nat * bool)) : list sel :=
    map (fun ax => if ax =? fst (fst e) then (if snd (fst e) then Lst else Fst)
                   else if ax =? fst (snd e) then (if snd (snd e) then Lst else Fst) else All) [0; 1; 2].
  Lemma edges12_sides : edges12 = map esel edge_sides3.
  Proof. reflexivity. Qed.
  Ltac idx3 i := destruct i as [|x [|y [|z [|]]]]; try discriminate.
  Ltac bools := repeat match goal with |- context [?a =? ?b] => destruct (a =? b) end; reflexivity.
  Lemma esel_selb e t i : In e edge_sides3 -> touches (fst e) t = true -> touches (snd e) t = true -> length t = 3 ->
    inb (sizes p t) i = true -> on_edge p e (combine t i) = selb (esel e) (sizes p t) i.
  Proof.
    intros He T1 T2 Lt Hi. assert (Li := inb_length _ _ Hi). rewrite length_sizes in Li by assumption.
    destruct t as [|t0 [|t1 [|t2 [|]]]]; try discriminate. idx3 i. clear Hi.
    cbn in He. repeat destruct He as [<-|He]; try contradiction; cbn in T1, T2;
      repeat match goal with b : bool |- _ => destruct b; try discriminate end;
      unfold on_edge, on_side, factor_eqb; cbn; rewrite ?Nat.sub_0_r, ?andb_true_r; reflexivity.
  Qed.
  Lemma ecells_one ts e t : types_ok p ts -> filter (fun t => touches (fst e) t && touches (snd e) t) ts = [t] ->
    ecells ts e = filter (on_edge p e) (cells_t p t).
  Proof.
    intros T Hf.
    assert (G : filter (on_edge p e) (cells p ts) =
      flat_map (fun t => filter (on_edge p e) (cells_t p t)) (filter (fun t => touches (fst e) t && touches (snd e) t) ts)).
    { unfold cells. rewrite filter_flat_map, <- flat_map_filter. rewrite !flat_map_concat_map. f_equal.
      apply map_ext_in. intros u Hu. destruct (touches (fst e) u && touches (snd e) u) eqn:E; [reflexivity|].
      apply filter_none. intros x Hx. assert (Lu : length u = length p) by (apply T; assumption).
      apply in_cells_t in Hx; [|assumption]. destruct Hx as [Ex Fx].
      rewrite <- (combine_map_fst_snd x), Ex. unfold on_edge. assert (Lx : length (map snd x) = length p).
      { rewrite map_length. symmetry. apply (F2_length _ _ _ Fx). }
      apply andb_false_iff in E. apply andb_false_iff. destruct E as [E|E]; [left|right]; exact (on_side_interval p _ u _ Lu Lx E). }
    unfold ecells. rewrite G, Hf. cbn [flat_map]. apply app_nil_r.
  Qed.
  Lemma touches_both ts e t : filter (fun t => touches (fst e) t && touches (snd e) t) ts = [t] ->
    touches (fst e) t = true /\ touches (snd e) t = true.
  Proof.
    intros Hf. assert (In t (filter (fun t => touches (fst e) t && touches (snd e) t) ts)) as Hi by (rewrite Hf; left; reflexivity).
    apply filter_In in Hi. apply andb_true_iff. apply Hi.
  Qed.
  Lemma ravel_edge ts e c t a : types_ok p ts -> In e edge_sides3 -> nth_error ts c = Some t ->
    filter (fun t => touches (fst e) t && touches (snd e) t) ts = [t] ->
    nth_error (arrs_from 0 (map (sizes p) ts)) c = Some a ->
    ravel a (esel e) = Some (map (pos (cells p ts)) (ecells ts e)).
  Proof.
    intros T He Ht Hf Ha. destruct (touches_both ts e t Hf) as [H1 H2].
    assert (Lt : length t = 3) by (apply T; eapply nth_error_In; eassumption).
    rewrite (ecells_one ts e t T Hf). eapply ravel_cells; try eassumption; [reflexivity|]. intros. apply esel_selb; auto.
  Qed.
  Lemma edge_block_ok ts e c t n : types_ok p ts -> In e edge_sides3 -> nth_error ts c = Some t ->
    filter (fun t => touches (fst e) t && touches (snd e) t) ts = [t] -> n = length (ecells ts e) ->
    exists B, edge_block (map (sizes p) ts) n c (esel e) = Some B /\
      forall r c, B r c = match nth_error (ecells ts e) r with
                          | Some x => if c =? pos (cells p ts) x then 1%Z else 0%Z | None => 0%Z end.
  Proof.
    intros T He Ht Hf ->. unfold edge_block. rewrite numbering_ok.
    destruct (arrs_ex 0 (map (sizes p) ts) c (sizes p t)) as (a & Ha & _); [rewrite nth_error_map, Ht; reflexivity|].
    rewrite Ha, (ravel_edge ts e c t a) by assumption. rewrite assign_rows by reflexivity. rewrite nb_ok.
    apply build_rows; [reflexivity|]. intros x Hx. apply filter_In in Hx. apply Hx.
  Qed.
  Lemma edge_sel_ok ts comp num : types_ok p ts ->
    (forall e, In e edge_sides3 -> num (edge_axis (esel e)) = Some (length (ecells ts e)) /\
       exists t, nth_error ts (comp (edge_axis (esel e))) = Some t /\
         filter (fun t => touches (fst e) t && touches (snd e) t) ts = [t]) ->
    exists M, edge_sel (map (sizes p) ts) comp num = Some M /\
      restricts (on_edges p ts edge_sides3) (cells p ts) (fun _ => 1%Z) M.
  Proof.
    intros T H. unfold edge_sel. rewrite edges12_sides, map_map.
    destruct (stack_ok edge_sides3 (fun e => num (edge_axis (esel e)))
      (fun e n => edge_block (map (sizes p) ts) n (comp (edge_axis (esel e))) (esel e)) (ecells ts)
      (cells p ts) (fun _ => 1%Z)) as (bs & Eb & Hb).
    - apply NoDup_cells, T.
    - intros k x Hx. apply filter_In in Hx. apply Hx.
    - intros e He. destruct (H e He) as (En & t & Ht & Hf). split; [exact En|]. eapply edge_block_ok; eauto.
    - exists (vstack bs). split; [|exact Hb].
      match goal with |- match ?X with _ => _ end = _ => replace X with (Some bs) by (symmetry; exact Eb) end. reflexivity.
  Qed.
  Lemma len_edge ts e t n : types_ok p ts -> In e edge_sides3 -> In t ts ->
    filter (fun t => touches (fst e) t && touches (snd e) t) ts = [t] ->
    option_map (fun ls => prodl (map (@length nat) ls)) (idxss (esel e) (sizes p t)) = Some n ->
    length (ecells ts e) = n.
  Proof.
    intros T He Ht Hf E. destruct (touches_both ts e t Hf) as [H1 H2].
    assert (Lt : length t = 3) by (apply T; assumption). rewrite (ecells_one ts e t T Hf).
    destruct (idxss (esel e) (sizes p t)) as [ls|] eqn:El; [|discriminate]. injection E as <-.
    eapply length_filter_cells_t; try eassumption; [reflexivity|]. intros. apply esel_selb; auto.
  Qed.
  Ltac elen_t ok := cbn [edge_axis esel map fst snd nth_error option_map Nat.eqb]; apply f_equal; symmetry;
    eapply len_edge; [apply ok|cbn; tauto| |reflexivity|cbn; rewrite ?seq_length; f_equal; lia]; cbn; tauto.
  Lemma edge0_ok : exists M, edge0 p = Some M /\
    restricts (on_edges p nodes3 edge_sides3) (cells p nodes3) (fun _ => 1%Z) M.
  Proof.
    unfold edge0. rewrite shapes0_3. apply edge_sel_ok; [apply nodes3_ok|]. intros e He.
    cbn in He. repeat destruct He as [<-|He]; try contradiction; (split; [elen_t nodes3_ok|eexists; split; reflexivity]).
  Qed.
  Lemma edge1_ok : exists M, edge1 p = Some M /\
    restricts (on_edges p edges3 edge_sides3) (cells p edges3) (fun _ => 1%Z) M.
  Proof.
    unfold edge1. rewrite shapes1_3. apply edge_sel_ok; [apply edges3_ok|]. intros e He.
    cbn in He. repeat destruct He as [<-|He]; try contradiction; (split; [elen_t edges3_ok|eexists; split; reflexivity]).
  Qed.

  (** ** interior *)
  Definition inner (c : cell) : bool := forallb (fun s => negb (on_side p s c)) sides3.
  Definition isel (t : ctype) : list sel := map (fun b : bool => if b then All else Inn) t.
  Lemma isel_selb t i : length t = 3 -> inb (sizes p t) i = true -> inner (combine t i) = selb (isel t) (sizes p t) i.
  Proof.
    intros Lt Hi. assert (Li := inb_length _ _ Hi). rewrite length_sizes in Li by assumption.
    destruct t as [|t0 [|t1 [|t2 [|]]]]; try discriminate. idx3 i.
    assert (G : forall n b x, (x <? size n b) = true ->
      negb (factor_eqb (b, x) (false, 0)) && negb (factor_eqb (b, x) (false, n)) = selp (if b then All else Inn) (size n b) x).
    { clear. intros n b x H. unfold factor_eqb. destruct b; cbn [fst snd Bool.eqb andb negb selp size] in *; [reflexivity|].
      apply Nat.ltb_lt in H. replace (S n - 1) with n by lia.
      destruct (Nat.eqb_spec x 0), (Nat.eqb_spec x n), (Nat.leb_spec 1 x), (Nat.ltb_spec x n); cbn; try reflexivity; lia. }
    cbn [inb sizes] in Hi. rewrite !andb_true_iff in Hi. destruct Hi as (Hx & Hy & Hz & _).
    unfold inner, isel. cbn [forallb sides3 on_side nth_error combine fst snd map selb sizes].
    rewrite <- (G px t0 x Hx), <- (G py t1 y Hy), <- (G pz t2 z Hz). rewrite !andb_true_r.
    unfold on_side. cbn [nth_error combine fst snd]. rewrite !andb_assoc. reflexivity.
  Qed.
  Lemma ravel_inner ts c t a : types_ok p ts -> nth_error ts c = Some t ->
    nth_error (arrs_from 0 (map (sizes p) ts)) c = Some a ->
    ravel a (isel t) = Some (map (pos (cells p ts)) (filter inner (cells_t p t))).
  Proof.
    intros T Ht Ha. assert (Lt : length t = 3) by (apply T; eapply nth_error_In; eassumption).
    eapply ravel_cells; try eassumption; [unfold isel; rewrite map_length; assumption|]. intros. apply isel_selb; auto.
  Qed.
  Lemma internal0_ok : internal0 p = Some (map (pos (cells p nodes3)) (filter inner (cells p nodes3))).
  Proof.
    unfold internal0. rewrite numbering_ok, shapes0_3. cbn [map arrs_from nodes3].
    change [Inn; Inn; Inn] with (isel [false; false; false]).
    rewrite (ravel_inner nodes3 0) by (try reflexivity; apply nodes3_ok).
    assert (E : filter inner (cells p nodes3) = filter inner (cells_t p [false; false; false])).
    { unfold cells. cbn [flat_map nodes3]. rewrite app_nil_r. reflexivity. }
    rewrite E. reflexivity.
  Qed.
  Lemma internal1_ok : internal1 p = Some (map (pos (cells p edges3)) (filter inner (cells p edges3))).
  Proof.
    unfold internal1. rewrite numbering_ok, shapes1_3. cbn [map arrs_from edges3].
    change [All; Inn; Inn] with (isel [true; false; false]). change [Inn; All; Inn] with (isel [false; true; false]).
    change [Inn; Inn; All] with (isel [false; false; true]).
    rewrite (ravel_inner edges3 0) by (try reflexivity; apply edges3_ok).
    rewrite (ravel_inner edges3 1) by (try reflexivity; apply edges3_ok).
    rewrite (ravel_inner edges3 2) by (try reflexivity; apply edges3_ok).
    unfold concat_some. cbn [all_some option_map concat]. rewrite app_nil_r. f_equal.
    assert (E : filter inner (cells p edges3) = filter inner (cells_t p [true; false; false]) ++
      filter inner (cells_t p [false; true; false]) ++ filter inner (cells_t p [false; false; true])).
    { unfold cells. cbn [flat_map edges3]. rewrite app_nil_r, !filter_app. reflexivity. }
    rewrite E, !map_app. reflexivity.
  Qed.
  Lemma inner_face_none t n : In (t, n) (combine faces3 [px; py; pz]) -> n = 1 -> filter inner (cells_t p t) = [].
  Proof.
    intros H E. apply filter_none. intros c Hc. unfold cells_t in Hc. apply in_map_iff in Hc. destruct Hc as (i & <- & Hi).
    apply in_grid in Hi. assert (Li := inb_length _ _ Hi).
    cbn in H. repeat destruct H as [H|H]; try contradiction; injection H as <- <-; idx3 i; cbn in Hi; rewrite ?andb_true_iff, ?Nat.leb_le in Hi;
      subst; unfold inner; cbn [forallb sides3]; unfold on_side, factor_eqb; cbn [nth_error combine fst snd Bool.eqb andb];
      (destruct Hi as (Hx & Hy & Hz & _)).
    - destruct x as [|[|x]]; [reflexivity| |lia]. rewrite E, ?andb_false_r. reflexivity.
    - destruct y as [|[|y]]; [reflexivity| |lia]. rewrite E, ?andb_false_r. reflexivity.
    - destruct z as [|[|z]]; [reflexivity| |lia]. rewrite E, ?andb_false_r. reflexivity.
  Qed.
  Lemma internal2_ok : p <> [1; 1; 1] -> internal2 p = Some (map (pos (cells p faces3)) (filter inner (cells p faces3))).
  Proof.
    intros N. unfold internal2. rewrite numbering_ok, shapes2_3. cbn [map arrs_from faces3].
    change [Inn; All; All] with (isel [false; true; true]). change [All; Inn; All] with (isel [true; false; true]).
    change [All; All; Inn] with (isel [true; true; false]).
    rewrite (ravel_inner faces3 0) by (try reflexivity; apply faces3_ok).
    rewrite (ravel_inner faces3 1) by (try reflexivity; apply faces3_ok).
    rewrite (ravel_inner faces3 2) by (try reflexivity; apply faces3_ok).
    assert (E : filter inner (cells p faces3) = filter inner (cells_t p [false; true; true]) ++
      filter inner (cells_t p [true; false; true]) ++ filter inner (cells_t p [true; true; false])).
    { unfold cells. cbn [flat_map faces3]. rewrite app_nil_r, !filter_app. reflexivity. }
    rewrite E, !map_app.
    assert (N0 : px = 1 -> filter inner (cells_t p [false; true; true]) = []) by (intros H; eapply inner_face_none; [left; reflexivity|exact H]).
    assert (N1 : py = 1 -> filter inner (cells_t p [true; false; true]) = []) by (intros H; eapply inner_face_none; [right; left; reflexivity|exact H]).
    assert (N2 : pz = 1 -> filter inner (cells_t p [true; true; false]) = []) by (intros H; eapply inner_face_none; [right; right; left; reflexivity|exact H]).
    destruct (Nat.eqb_spec px 1) as [E0|], (Nat.eqb_spec py 1) as [E1|], (Nat.eqb_spec pz 1) as [E2|];
      try (exfalso; apply N; congruence);
      try rewrite (N0 E0); try rewrite (N1 E1); try rewrite (N2 E2); cbn [app map]; unfold concat_some; cbn [all_some option_map concat];
      rewrite ?app_nil_r; reflexivity.
  Qed.
  Lemma inner_numbers ts l : types_ok p ts -> l = map (pos (cells p ts)) (filter inner (cells p ts)) ->
    NoDup l /\ forall n, In n l <-> exists c, nth_error (cells p ts) n = Some c /\ on_surface p c = false.
  Proof.
    intros T ->. assert (Nd := NoDup_cells p ts T). split.
    - apply NoDup_map_inj; [|apply NoDup_filter; assumption]. intros a b Ha Hb. apply filter_In in Ha, Hb. apply pos_inj; tauto.
    - intros n. rewrite in_map_iff.
      assert (G : forall c, inner c = true <-> on_surface p c = false).
      { intros c. unfold inner, on_surface. cbn [forallb existsb sides3].
        repeat match goal with |- context [on_side p ?s c] => destruct (on_side p s c) end; cbn; intuition congruence. }
      split.
      + intros (c & <- & Hc). apply filter_In in Hc. exists c. split; [apply pos_nth; tauto|apply G; tauto].
      + intros (c & Hn & Hc). exists c. split; [apply pos_eq; assumption|]. apply filter_In. split; [eapply nth_error_In; eassumption|apply G; assumption].
  Qed.
End Three.

(** * two dimensions *)
Section Two.
  Context (px py : nat) (Fp : Forall (fun n => 1 <= n) [px; py]).
  Notation p := [px; py].
  Lemma len_side2 s t n : length t = 2 -> touches s t = true ->
    option_map (fun ls => prodl (map (@length nat) ls)) (idxss (side_sel 2 s) (sizes p t)) = Some n ->
    length (filter (on_side p s) (cells_t p t)) = n.
  Proof.
    intros Lt Ht E. destruct (idxss (side_sel 2 s) (sizes p t)) as [ls|] eqn:El; [|discriminate]. injection E as <-.
    apply length_side; auto.
  Qed.
  Ltac len_t :=
    unfold scells; rewrite filter_side_cells by (cbn; intros t H; intuition (subst; reflexivity));
    cbn [filter touches nth_error fst snd negb flat_map edges2_outer]; rewrite ?app_length; cbn [length];
    repeat (erewrite len_side2; [| reflexivity | reflexivity |
       cbn [side_sel map seq Nat.eqb fst snd sizes size idxss idxs]; cbn [option_map map]; rewrite ?seq_length; cbn [length prodl fold_right];
       rewrite ?seq_length; reflexivity]).
  Lemma lenO : map (fun s => length (scells p edges2_outer s)) UDLR = [py; py; px; px].
  Proof. cbn [map UDLR]. repeat (apply f_equal2; [len_t; lia|]). reflexivity. Qed.
  Ltac comp_t := intros s H; cbn in H; repeat destruct H as [<-|H]; try contradiction; eexists; split; reflexivity.
  Lemma traceO_ok : exists M, traceO p = Some M /\ restricts (on_sides p edges2_outer sides2) (cells p edges2_outer) sgO M.
  Proof.
    unfold traceO. rewrite shapes2_2. apply trace_PU_ok; [apply edges2o_ok|assumption|comp_t|symmetry; apply lenO|].
    rewrite length_on_sides. change sides2 with UDLR. rewrite lenO. cbn. lia.
  Qed.
End Two.
