(** Local gathering of the trace dofs. *)
From Coq Require Import List Arith ZArith Lia Bool.
From Verif Require Import Prelude PreludeProofs SpaceModel SpaceSpec SpaceProofs SpaceProofs2 SpaceProofs4 SpaceProofs5 SpaceProofs6.
Import ListNotations.

Lemma NoDup_app_ {A} (l m : list A) : NoDup l -> NoDup m -> (forall x, In x l -> ~ In x m) -> NoDup (l ++ m).
Proof.
  intros Hl Hm H. induction Hl as [|x l Hx Hl IH]; [exact Hm|]. cbn [app]. constructor.
  - rewrite in_app_iff. intros [Q|Q]; [contradiction|]. apply (H x); [left; reflexivity|assumption].
  - apply IH. intros y Hy. apply H. right. assumption.
Qed.
Lemma NoDup_app_inv {A} (l m : list A) : NoDup (l ++ m) -> NoDup l /\ NoDup m /\ forall x, In x l -> ~ In x m.
Proof.
  induction l as [|x l IH]; intros N; [repeat split; [constructor|assumption|intros x []]|]. cbn [app] in N. inversion N as [|? ? Hx N']; subst.
  destruct (IH N') as (H1 & H2 & H3). rewrite in_app_iff in Hx. repeat split; [constructor; tauto|assumption|].
  intros y [<-|Hy]; [tauto|apply H3; assumption].
Qed.
Lemma fold_set_at I0 cn f i : NoDup I0 ->
  (forall m, nth_error I0 m = Some i -> fold_left set_at (combine I0 (seq cn (length I0))) f i = Z.of_nat (cn + m)) /\
  (~ In i I0 -> fold_left set_at (combine I0 (seq cn (length I0))) f i = f i).
Proof.
  revert cn f. induction I0 as [|j I0 IH]; intros cn f N.
  - split; [intros [|m] H; discriminate|reflexivity].
  - inversion N as [|? ? Hj N']; subst. cbn [length seq combine fold_left]. split.
    + intros [|m] H; cbn [nth_error] in H.
      * injection H as ->. destruct (IH (S cn) (set_at f (i, cn)) N') as [_ H2]. rewrite H2 by assumption.
        unfold set_at. cbn [fst snd]. destruct (list_eq_dec Nat.eq_dec i i); [|contradiction]. f_equal. lia.
      * destruct (IH (S cn) (set_at f (j, cn)) N') as [H1 _]. rewrite (H1 m H). f_equal. lia.
    + intros H. destruct (IH (S cn) (set_at f (j, cn)) N') as [_ H2]. rewrite H2 by (intros Q; apply H; right; assumption).
      unfold set_at. cbn [fst snd]. destruct (list_eq_dec Nat.eq_dec i j) as [->|]; [|reflexivity]. exfalso. apply H. left. reflexivity.
Qed.
(** an assignment which numbers the indices R *)
Definition fok (s : list nat) (f : list sel * nat * list nat) (R : list (list nat)) : Prop :=
  let '(ss, n, dims) := f in
  exists ls, idxss ss s = Some ls /\ prod_idx ls = R /\ n = prodl dims /\ dims = sub_shape ss ls /\ n = length R.
Lemma fills_ok s fs Rs : Forall2 (fok s) fs Rs -> forall f0 cn, NoDup (concat Rs) ->
  exists g, fold_left fill fs (Some (mkArr s f0, cn)) = Some (mkArr s g, cn + length (concat Rs)) /\
    (forall m i, nth_error (concat Rs) m = Some i -> g i = Z.of_nat (cn + m)) /\
    (forall i, ~ In i (concat Rs) -> g i = f0 i).
Proof.
  induction 1 as [|[[ss n] dims] R fs Rs (ls & El & Ep & En & Ed & Eln) F IH]; intros f0 cn N.
  - exists f0. cbn [fold_left concat length]. rewrite Nat.add_0_r. split; [reflexivity|]. split; [intros [|m]; discriminate|reflexivity].
  - cbn [concat] in N.
    destruct (NoDup_app_inv _ _ N) as (NR & NRs & D).
    cbn [fold_left fill shp at_]. rewrite El, <- En, Nat.eqb_refl. cbn [andb].
    destruct (list_eq_dec Nat.eq_dec dims (sub_shape ss ls)) as [_|Q]; [|contradiction].
    rewrite Ep, Eln. destruct (IH (fold_left set_at (combine R (seq cn (length R))) f0) (cn + length R) NRs) as (g & Eg & G1 & G2).
    exists g. split; [rewrite Eg; cbn [concat]; rewrite app_length, Nat.add_assoc; reflexivity|]. split.
    + intros m i Hm. cbn [concat] in Hm. destruct (Nat.lt_ge_cases m (length R)) as [L|L].
      * rewrite nth_error_app1 in Hm by assumption. rewrite G2 by (apply D; eapply nth_error_In; eassumption).
        destruct (fold_set_at R cn f0 i NR) as [H1 _]. apply H1. assumption.
      * rewrite nth_error_app2 in Hm by assumption. rewrite (G1 _ _ Hm). f_equal. lia.
    + intros i Hi. cbn [concat] in Hi. rewrite G2 by (intros Q; apply Hi; apply in_or_app; right; assumption).
      destruct (fold_set_at R cn f0 i NR) as [_ H2]. apply H2. intros Q. apply Hi. apply in_or_app. left. assumption.
Qed.
(** regions as predicates on the grid *)
Lemma NoDup_filters {A} (G : list A) Ps : NoDup G ->
  ForallOrdPairs (fun P Q : A -> bool => forall i, In i G -> P i = true -> Q i = true -> False) Ps ->
  NoDup (concat (map (fun P => filter P G) Ps)).
Proof.
  intros N H. induction H as [|P Ps HP H IH]; [constructor|]. cbn [map concat].
  apply NoDup_app_; [apply NoDup_filter; assumption|assumption|].
  intros i Hi Q. apply filter_In in Hi. apply in_concat in Q. destruct Q as (l & Hl & Q). apply in_map_iff in Hl.
  destruct Hl as (P' & <- & HP'). apply filter_In in Q. rewrite Forall_forall in HP. apply (HP P' HP' i); tauto.
Qed.
Lemma in_filters {A} (G : list A) Ps i : In i (concat (map (fun P => filter P G) Ps)) <-> In i G /\ existsb (fun P => P i) Ps = true.
Proof.
  rewrite in_concat, existsb_exists. split.
  - intros (l & Hl & H). apply in_map_iff in Hl. destruct Hl as (P & <- & HP). apply filter_In in H. split; [tauto|]. exists P. tauto.
  - intros (H & P & HP & E). exists (filter P G). split; [exact (in_map (fun P => filter P G) Ps P HP)|]. apply filter_In. tauto.
Qed.

Lemma fok_sel s ss n dims ls : Forall (fun n => n <> 0) s -> length ss = length s -> idxss ss s = Some ls ->
  n = prodl dims -> dims = sub_shape ss ls -> prodl (map (@length nat) ls) = n ->
  fok s (ss, n, dims) (filter (selb ss s) (grid s)).
Proof.
  intros F L E En Ed El. destruct (idxss_grid ss s L F) as (ls' & E' & Ep). rewrite E in E'. injection E' as <-.
  exists ls. repeat split; try assumption. rewrite <- Ep, length_prod_idx. symmetry. assumption.
Qed.
Lemma no_minus_nat {A} (f : A -> nat) l : no_minus (Some (map (fun c => Z.of_nat (f c)) l)) = Some (map (fun c => Z.of_nat (f c)) l).
Proof.
  unfold no_minus. destruct (existsb _ _) eqn:E; [|reflexivity]. apply existsb_exists in E. destruct E as (x & Hx & E).
  apply in_map_iff in Hx. destruct Hx as (a & <- & _). apply Z.eqb_eq in E. lia.
Qed.
Lemma pos_app_l cs ds c : In c cs -> pos (cs ++ ds) c = pos cs c.
Proof.
  induction cs as [|x cs IH]; [intros []|]. intros H. cbn [app pos]. destruct (cell_eqb x c) eqn:E; [reflexivity|].
  f_equal. apply IH. destruct H as [->|H]; [|assumption].
  assert (cell_eqb c c = true) by (apply cell_eqb_eq; reflexivity). congruence.
Qed.
Lemma pos_app_r cs ds c : ~ In c cs -> pos (cs ++ ds) c = length cs + pos ds c.
Proof.
  induction cs as [|x cs IH]; intros H; [reflexivity|]. cbn [app pos length]. destruct (cell_eqb x c) eqn:E.
  - apply cell_eqb_eq in E. subst. exfalso. apply H. left. reflexivity.
  - rewrite IH by (intros Q; apply H; right; assumption). reflexivity.
Qed.
Lemma map_pos_self cs : NoDup cs -> map (pos cs) cs = seq 0 (length cs).
Proof.
  intros N. apply list_ext_nth_error. intros k. rewrite nth_error_map. destruct (nth_error cs k) as [c|] eqn:E; cbn [option_map].
  - rewrite (pos_eq cs c k N E). assert (k < length cs) by (apply nth_error_Some; congruence).
    rewrite (nth_error_nth' _ 0) by (rewrite seq_length; assumption). rewrite seq_nth by assumption. reflexivity.
  - symmetry. apply nth_error_None. rewrite seq_length. apply nth_error_None. assumption.
Qed.
Lemma ranges_pos off Ls : NoDup (concat Ls) ->
  ranges off (map (@length cell) Ls) = map (map (fun c => off + pos (concat Ls) c)) Ls.
Proof.
  revert off. induction Ls as [|l Ls IH]; intros off N; [reflexivity|]. cbn [map ranges concat] in *.
  destruct (NoDup_app_inv _ _ N) as (N1 & N2 & D). f_equal.
  - rewrite <- (map_map (pos (l ++ concat Ls)) (fun x => off + x)).
    rewrite (map_ext_in _ (pos l)) by (intros c Hc; apply pos_app_l; assumption). rewrite map_pos_self by assumption.
    apply list_ext_nth_error. intros i. rewrite nth_error_map_seq. destruct (Nat.ltb_spec i (length l)).
    + rewrite (nth_error_nth' _ 0) by (rewrite seq_length; lia). rewrite seq_nth by lia. f_equal.
    + apply nth_error_None. rewrite seq_length. lia.
  - rewrite IH by assumption. apply map_ext_in. intros m Hm. apply map_ext_in. intros c Hc.
    rewrite pos_app_r; [lia|]. intros Q. apply (D c Q). apply in_concat. exists m. tauto.
Qed.

Section Three.
  Context (px py pz : nat) (Fp : Forall (fun n => 1 <= n) [px; py; pz]).
  Notation p := [px; py; pz].
  Lemma gathering_ok ts R L N : types_ok p ts -> NoDup R ->
    (forall c, In c R <-> In c (cells p ts) /\ on_surface p c = true) ->
    L = map (fun s => map (fun c => Z.of_nat (pos R c)) (filter (on_side p s) (cells p ts))) sides3 -> N = length R ->
    numbers_surface p ts L N.
  Proof.
    intros T NR HR EL ->. exists (pos R). split; [exact EL|]. split.
    - intros c d Hc Hd Sc Sd E. apply (pos_inj R); try (apply HR; split; assumption). assumption.
    - intros n. split.
      + intros Hn. destruct (nth_error R n) as [c|] eqn:E; [|apply nth_error_None in E; lia]. exists c.
        assert (In c R) as Hc by (eapply nth_error_In; eassumption). apply HR in Hc. split; [tauto|]. split; [tauto|]. apply pos_eq; assumption.
      + intros (c & Hc & Sc & <-). apply pos_lt. apply HR. split; assumption.
  Qed.
  (** the numbers in one component *)
  Lemma comp_ok t sss fs cn : length t = 3 ->
    Forall2 (fun ss f => fok (sizes p t) f (filter (selb ss (sizes p t)) (grid (sizes p t)))) sss fs ->
    ForallOrdPairs (fun ss ss' => forall i, inb (sizes p t) i = true -> selb ss (sizes p t) i = true -> selb ss' (sizes p t) i = true -> False) sss ->
    (forall i, inb (sizes p t) i = true -> existsb (fun ss => selb ss (sizes p t) i) sss = on_surface p (combine t i)) ->
    exists g R, fold_left fill fs (Some (minus_ones (sizes p t), cn)) = Some (mkArr (sizes p t) g, cn + length R) /\
      NoDup R /\ (forall c, In c R <-> In c (cells_t p t) /\ on_surface p c = true) /\
      (forall c, In c (cells_t p t) -> on_surface p c = true -> g (map snd c) = Z.of_nat (cn + pos R c)) /\
      length R = sum (map (fun f => snd (fst f)) fs).
  Proof.
    intros Lt F D C. set (s := sizes p t) in *.
    assert (F' : Forall2 (fok s) fs (map (fun P => filter P (grid s)) (map (fun ss => selb ss s) sss))).
    { clear - F. induction F; [constructor|]. cbn [map]. constructor; assumption. }
    assert (ND : NoDup (concat (map (fun P => filter P (grid s)) (map (fun ss => selb ss s) sss)))).
    { apply NoDup_filters; [apply NoDup_grid|]. clear - D. induction D as [|ss sss H D IH]; [constructor|]. cbn [map]. constructor; [|assumption].
      apply Forall_map. eapply Forall_impl; [|exact H]. cbn. intros ss' Hs i Hi. apply in_grid in Hi. apply Hs. assumption. }
    assert (Lc : forall i, inb s i = true -> length i = length t).
    { intros i Hi. apply inb_length in Hi. unfold s in Hi. rewrite length_sizes in Hi by assumption. rewrite Hi, Lt. reflexivity. }
    destruct (fills_ok s fs _ F' (fun _ => (-1)%Z) cn ND) as (g & Eg & G1 & _).
    set (I0 := concat (map (fun P => filter P (grid s)) (map (fun ss => selb ss s) sss))) in *.
    assert (HI : forall i, In i I0 <-> inb s i = true /\ on_surface p (combine t i) = true).
    { intros i. unfold I0. rewrite in_filters, in_grid. split; intros [H1 H2]; split; try assumption.
      - rewrite <- C by assumption. rewrite <- H2. clear. induction sss as [|ss l IH]; [reflexivity|]. cbn [map existsb]. rewrite IH. reflexivity.
      - rewrite <- C in H2 by assumption. rewrite <- H2. clear. induction sss as [|ss l IH]; [reflexivity|]. cbn [map existsb]. rewrite IH. reflexivity. }
    exists g, (map (combine t) I0). rewrite map_length. split; [exact Eg|].
    assert (NR : NoDup (map (combine t) I0)).
    { apply NoDup_map_inj; [|exact ND]. intros a b Ha Hb E. apply HI in Ha, Hb. destruct Ha as [Ha _], Hb as [Hb _].
      rewrite <- (map_snd_combine t a), <- (map_snd_combine t b), E by (apply Lc; assumption). reflexivity. }
    split; [exact NR|]. split; [|split].
    - intros c. rewrite in_map_iff. unfold cells_t. fold s. rewrite in_map_iff. split.
      + intros (i & <- & Hi). apply HI in Hi. split; [exists i; split; [reflexivity|apply in_grid; tauto]|tauto].
      + intros [(i & <- & Hi) Sc]. exists i. split; [reflexivity|]. apply HI. split; [apply in_grid; assumption|assumption].
    - intros c Hc Sc. unfold cells_t in Hc. fold s in Hc. apply in_map_iff in Hc. destruct Hc as (i & <- & Hi). apply in_grid in Hi.
      rewrite map_snd_combine by (apply Lc; assumption).
      assert (In i I0) as Hi0 by (apply HI; split; assumption). apply In_nth_error in Hi0. destruct Hi0 as (m & Hm).
      rewrite (G1 m i Hm). do 2 f_equal. symmetry. apply pos_eq; [exact NR|]. rewrite nth_error_map, Hm. reflexivity.
    - unfold I0. clear - F'. induction F' as [|f R fs Rs H F IH]; [reflexivity|]. cbn [concat map]. rewrite app_length, sum_cons, IH.
      f_equal. destruct f as [[ss n] dims]. destruct H as (ls & _ & _ & _ & _ & H). cbn. symmetry. exact H.
  Qed.
  Lemma surface_of s c : In s sides3 -> on_side p s c = true -> on_surface p c = true.
  Proof. intros Hs H. unfold on_surface. apply existsb_exists. exists s. tauto. Qed.
  Lemma ravel_num t g R s : length t = 3 -> In s sides3 -> touches s t = true ->
    (forall c, In c (cells_t p t) -> on_surface p c = true -> g (map snd c) = Z.of_nat (pos R c)) ->
    ravel (mkArr (sizes p t) g) (side_sel 3 s) = Some (map (fun c => Z.of_nat (pos R c)) (filter (on_side p s) (cells_t p t))).
  Proof.
    intros Lt Hs Ht Hg. unfold ravel. cbn [shp].
    destruct (idxss_grid (side_sel 3 s) (sizes p t)) as (ls & El & Ep); [rewrite length_sizes by assumption; reflexivity|apply sizes_pos; assumption|].
    rewrite El, Ep. rewrite (all_some_map _ g).
    - f_equal. unfold cells_t. rewrite filter_map, map_map.
      rewrite (filter_ext_in (fun i => on_side p s (combine t i)) (selb (side_sel 3 s) (sizes p t)) (grid (sizes p t))).
      + apply map_ext_in. intros i Hi. apply filter_In in Hi. destruct Hi as [Hi Hsel]. apply in_grid in Hi.
        rewrite <- Hg.
        * rewrite map_snd_combine; [reflexivity|]. apply inb_length in Hi. rewrite length_sizes in Hi by assumption. rewrite Hi, Lt. reflexivity.
        * unfold cells_t. apply in_map, in_grid. assumption.
        * apply (surface_of s); [assumption|]. rewrite side_sel_selb by assumption. assumption.
      + intros i Hi. apply in_grid in Hi. apply side_sel_selb; assumption.
    - intros i Hi. apply filter_In in Hi. destruct Hi as [Hi _]. apply in_grid in Hi. unfold get. cbn [shp at_]. rewrite Hi. reflexivity.
  Qed.
  Ltac idx3 i := destruct i as [|x [|y [|z [|]]]]; try discriminate.
  Ltac fok_t := eapply fok_sel; [apply sizes_pos; [exact Fp|reflexivity]|reflexivity|reflexivity|cbn; lia|
     cbn [sub_shape length sizes size]; rewrite ?seq_length; repeat (apply f_equal2; [lia|]); reflexivity|
     cbn [map sizes size length]; rewrite ?seq_length; cbn [prodl fold_right length];
     try replace (S px - 2) with (px - 1) by lia; try replace (S py - 2) with (py - 1) by lia; try replace (S pz - 2) with (pz - 1) by lia; lia].
  Lemma F3' : 1 <= px /\ 1 <= py /\ 1 <= pz.
  Proof. apply F3. exact Fp. Qed.
  Ltac dis_t := intros i Hi; idx3 i; cbn [sizes size inb selb selp] in *; rewrite ?andb_true_iff, ?Nat.eqb_eq, ?Nat.leb_le, ?Nat.ltb_lt in *;
     destruct F3' as (? & ? & ?); lia.
  Ltac cov_t := intros i Hi; assert (Li := inb_length _ _ Hi); idx3 i; cbn [sizes size inb] in Hi; rewrite ?andb_true_iff, ?Nat.ltb_lt in Hi;
     destruct F3' as (? & ? & ?); unfold on_surface, on_side, factor_eqb;
     cbn [existsb sides3 selb selp sizes size nth_error combine fst snd Bool.eqb andb];
     rewrite ?Nat.sub_0_r, ?andb_true_r, ?orb_false_r; cbn [Nat.sub]; rewrite ?Nat.sub_0_r;
     repeat match goal with
       | |- context [?a =? ?b] => destruct (Nat.eqb_spec a b)
       | |- context [?a <? ?b] => destruct (Nat.ltb_spec a b)
       | |- context [?a <=? ?b] => destruct (Nat.leb_spec a b) end; cbn; try reflexivity; exfalso; lia.
  Lemma lg0_ok : exists L N, lg0 p = Some L /\ numbers_surface p nodes3 L N /\ Z.of_nat N = nt0_nonhybrid p.
  Proof.
    destruct (comp_ok [false; false; false] (map (fun f => fst (fst f)) (lg0_fills px py pz)) (lg0_fills px py pz) 0 eq_refl)
      as (g & R & Eg & NR & HR & Hg & Ln).
    { unfold lg0_fills. cbn [map fst]. repeat (apply Forall2_cons; [fok_t|]). constructor. }
    { cbn [map fst lg0_fills]. repeat (apply FOP_cons; [repeat (apply Forall_cons; [dis_t|]); apply Forall_nil|]). apply FOP_nil. }
    { cbn [map fst lg0_fills]. cov_t. }
    exists (map (fun s => map (fun c => Z.of_nat (pos R c)) (filter (on_side p s) (cells p nodes3))) sides3), (length R).
    assert (E : cells p nodes3 = cells_t p [false; false; false]) by apply app_nil_r.
    split; [|split].
    - unfold lg0. replace [px + 1; py + 1; pz + 1] with (sizes p [false; false; false]) by (cbn; rewrite !plus1_S; reflexivity).
      rewrite Eg. change NSWEBF with sides3. apply all_some_map. intros s Hs. rewrite E.
      rewrite (ravel_num [false; false; false] g R s eq_refl Hs); [apply no_minus_nat| |exact Hg].
      cbn in Hs. repeat destruct Hs as [<-|Hs]; try contradiction; reflexivity.
    - eapply gathering_ok; [apply nodes3_ok|exact NR|intros c; rewrite E; apply HR|reflexivity|reflexivity].
    - rewrite Ln. unfold lg0_fills. cbn [map fst snd]. rewrite !sum_cons. unfold nt0_nonhybrid, ntrace, on0. destruct F3' as (? & ? & ?).
      destruct px as [|qx], py as [|qy], pz as [|qz]; try lia. unfold sum; cbn [fold_right Nat.sub]. rewrite !Nat.sub_0_r. lia.
  Qed.
  Lemma lg1_ok : exists L N, lg1 p = Some L /\ numbers_surface p edges3 L N /\ Z.of_nat N = nt1_nonhybrid p.
  Proof.
    destruct (comp_ok [true; false; false] (map (fun f => fst (fst f)) (lg1x px py pz)) (lg1x px py pz) 0 eq_refl)
      as (gx & Rx & Egx & NRx & HRx & Hgx & Lnx).
    { unfold lg1x. cbn [map fst]. repeat (apply Forall2_cons; [fok_t|]). constructor. }
    { cbn [map fst lg1x]. repeat (apply FOP_cons; [repeat (apply Forall_cons; [dis_t|]); apply Forall_nil|]). apply FOP_nil. }
    { cbn [map fst lg1x]. cov_t. }
    destruct (comp_ok [false; true; false] (map (fun f => fst (fst f)) (lg1y px py pz)) (lg1y px py pz) (length Rx) eq_refl)
      as (gy & Ry & Egy & NRy & HRy & Hgy & Lny).
    { unfold lg1y. cbn [map fst]. repeat (apply Forall2_cons; [fok_t|]). constructor. }
    { cbn [map fst lg1y]. repeat (apply FOP_cons; [repeat (apply Forall_cons; [dis_t|]); apply Forall_nil|]). apply FOP_nil. }
    { cbn [map fst lg1y]. cov_t. }
    destruct (comp_ok [false; false; true] (map (fun f => fst (fst f)) (lg1z px py pz)) (lg1z px py pz) (length Rx + length Ry) eq_refl)
      as (gz & Rz & Egz & NRz & HRz & Hgz & Lnz).
    { unfold lg1z. cbn [map fst]. repeat (apply Forall2_cons; [fok_t|]). constructor. }
    { cbn [map fst lg1z]. repeat (apply FOP_cons; [repeat (apply Forall_cons; [dis_t|]); apply Forall_nil|]). apply FOP_nil. }
    { cbn [map fst lg1z]. cov_t. }
    set (R := Rx ++ Ry ++ Rz).
    assert (TY : forall t c, length t = 3 -> In c (cells_t p t) -> map fst c = t).
    { intros t c Lt Hc. apply in_cells_t in Hc; [|exact Lt]. apply Hc. }
    assert (Dxy : forall c, In c Rx -> ~ In c Ry).
    { intros c H1 H2. apply HRx in H1. apply HRy in H2. destruct H1 as [H1 _], H2 as [H2 _].
      apply TY in H1; [|reflexivity]. apply TY in H2; [|reflexivity]. rewrite H1 in H2. discriminate. }
    assert (Dxz : forall c, In c Rx -> ~ In c Rz).
    { intros c H1 H2. apply HRx in H1. apply HRz in H2. destruct H1 as [H1 _], H2 as [H2 _].
      apply TY in H1; [|reflexivity]. apply TY in H2; [|reflexivity]. rewrite H1 in H2. discriminate. }
    assert (Dyz : forall c, In c Ry -> ~ In c Rz).
    { intros c H1 H2. apply HRy in H1. apply HRz in H2. destruct H1 as [H1 _], H2 as [H2 _].
      apply TY in H1; [|reflexivity]. apply TY in H2; [|reflexivity]. rewrite H1 in H2. discriminate. }
    assert (NR : NoDup R).
    { apply NoDup_app_; [assumption|apply NoDup_app_; assumption|]. intros c H1 H2. apply in_app_or in H2. destruct H2 as [H2|H2].
      - apply (Dxy c H1 H2).
      - apply (Dxz c H1 H2). }
    assert (E : cells p edges3 = cells_t p [true; false; false] ++ cells_t p [false; true; false] ++ cells_t p [false; false; true])
      by (unfold cells; cbn [flat_map edges3]; rewrite app_nil_r; reflexivity).
    assert (Gx : forall c, In c (cells_t p [true; false; false]) -> on_surface p c = true -> gx (map snd c) = Z.of_nat (pos R c)).
    { intros c Hc Sc. rewrite Hgx by assumption. unfold R. rewrite pos_app_l by (apply HRx; split; assumption). reflexivity. }
    assert (Gy : forall c, In c (cells_t p [false; true; false]) -> on_surface p c = true -> gy (map snd c) = Z.of_nat (pos R c)).
    { intros c Hc Sc. rewrite Hgy by assumption. assert (Hi : In c Ry) by (apply HRy; split; assumption). unfold R.
      rewrite pos_app_r by (intros Q; apply (Dxy c Q Hi)). rewrite pos_app_l by assumption. reflexivity. }
    assert (Gz : forall c, In c (cells_t p [false; false; true]) -> on_surface p c = true -> gz (map snd c) = Z.of_nat (pos R c)).
    { intros c Hc Sc. rewrite Hgz by assumption. assert (Hi : In c Rz) by (apply HRz; split; assumption). unfold R.
      rewrite pos_app_r by (intros Q; apply (Dxz c Q Hi)). rewrite pos_app_r by (intros Q; apply (Dyz c Q Hi)). f_equal. lia. }
    exists (map (fun s => map (fun c => Z.of_nat (pos R c)) (filter (on_side p s) (cells p edges3))) sides3), (length R).
    split; [|split].
    - unfold lg1. replace [px; py + 1; pz + 1] with (sizes p [true; false; false]) by (cbn; rewrite !plus1_S; reflexivity).
      replace [px + 1; py; pz + 1] with (sizes p [false; true; false]) by (cbn; rewrite !plus1_S; reflexivity).
      replace [px + 1; py + 1; pz] with (sizes p [false; false; true]) by (cbn; rewrite !plus1_S; reflexivity).
      rewrite Egx. cbn [Nat.add]. rewrite Egy, Egz. change NSWEBF with sides3. apply all_some_map. intros s Hs.
      assert (ES := filter_side_cells p s edges3 (proj2 (edges3_ok px py pz))).
      assert (Hs' := Hs). cbn in Hs'. repeat destruct Hs' as [<-|Hs']; try contradiction;
      (cbn [tang filter Nat.eqb negb fst map];
       try rewrite (ravel_num [true; false; false] gx R _ eq_refl Hs eq_refl Gx);
       try rewrite (ravel_num [false; true; false] gy R _ eq_refl Hs eq_refl Gy);
       try rewrite (ravel_num [false; false; true] gz R _ eq_refl Hs eq_refl Gz);
       unfold concat_some; cbn [all_some option_map concat]; rewrite app_nil_r, <- map_app, no_minus_nat;
       do 2 f_equal; symmetry; etransitivity; [exact ES|]; cbn [filter touches edges3 nth_error fst negb flat_map]; rewrite app_nil_r; reflexivity).
    - eapply gathering_ok; [apply edges3_ok|exact NR| |reflexivity|reflexivity]. intros c. rewrite E. unfold R. rewrite !in_app_iff, HRx, HRy, HRz. tauto.
    - unfold R. rewrite !app_length, Lnx, Lny, Lnz. unfold lg1x, lg1y, lg1z. cbn [map fst snd]. rewrite !sum_cons. unfold nt1_nonhybrid, ntrace, on1.
      destruct F3' as (? & ? & ?). destruct px as [|qx], py as [|qy], pz as [|qz]; try lia. unfold sum; cbn [fold_right Nat.sub]. rewrite !Nat.sub_0_r. lia.
  Qed.
  Lemma lg2_ok : exists L N, lg2 p = Some L /\ numbers_surface p faces3 L N /\ Z.of_nat N = nt2_nonhybrid p.
  Proof.
    set (Ls := map (scells p faces3) sides3). set (R := concat Ls).
    assert (One : forall s s' c, In s sides3 -> In s' sides3 -> In c (cells p faces3) -> on_side p s c = true -> on_side p s' c = true -> s = s').
    { intros s s' c Hs Hs' Hc H1 H2. unfold cells in Hc. apply in_flat_map in Hc. destruct Hc as (t & Ht & Hc).
      unfold cells_t in Hc. apply in_map_iff in Hc. destruct Hc as (i & <- & Hi). apply in_grid in Hi. assert (Li := inb_length _ _ Hi).
      destruct F3' as (? & ? & ?).
      cbn in Ht. repeat destruct Ht as [<-|Ht]; try contradiction; idx3 i; clear Hi;
      cbn in Hs, Hs'; repeat destruct Hs as [<-|Hs]; try contradiction; try (cbn in H1; discriminate);
      repeat destruct Hs' as [<-|Hs']; try contradiction; try (cbn in H2; discriminate); try reflexivity; exfalso;
      unfold on_side, factor_eqb in H1, H2; cbn [combine nth_error fst snd Bool.eqb andb] in H1, H2; apply Nat.eqb_eq in H1, H2; lia. }
    assert (NR : NoDup R).
    { unfold R, Ls. rewrite <- flat_map_concat_map. assert (NDs : NoDup sides3) by (repeat constructor; cbn; intuition discriminate).
      assert (G : forall l, (forall s, In s l -> In s sides3) -> NoDup l -> NoDup (flat_map (scells p faces3) l)).
      { induction l as [|s l IH]; intros Hl N; [constructor|]. inversion N as [|? ? Hn N']; subst. cbn [flat_map]. apply NoDup_app_.
        - apply NoDup_filter, NoDup_cells, faces3_ok.
        - apply IH; [intros; apply Hl; right; assumption|assumption].
        - intros c H1 H2. apply in_flat_map in H2. destruct H2 as (s' & Hs' & H2). apply filter_In in H1, H2. apply Hn.
          rewrite (One s s' c); try tauto; apply Hl; [left; reflexivity|right; assumption]. }
      apply G; auto. }
    exists (map (fun s => map (fun c => Z.of_nat (pos R c)) (filter (on_side p s) (cells p faces3))) sides3), (length R).
    split; [|split].
    - unfold lg2. change [py * pz; py * pz; px * pz; px * pz; px * py; px * py] with (onsides on2 p). rewrite <- (len2 px py pz Fp).
      change NSWEBF with sides3. rewrite <- (map_map (scells p faces3) (@length cell)). fold Ls. rewrite (ranges_pos 0 Ls NR).
      fold R. unfold Ls. rewrite !map_map. apply all_some_map. intros s Hs. rewrite map_map. cbn [Nat.add]. apply (no_minus_nat (pos R)).
    - eapply gathering_ok; [apply faces3_ok|exact NR| |reflexivity|reflexivity]. intros c. unfold R, Ls. rewrite <- flat_map_concat_map, in_flat_map.
      unfold on_surface. rewrite existsb_exists. unfold scells. split.
      + intros (s & Hs & H). apply filter_In in H. split; [tauto|]. exists s. tauto.
      + intros (Hc & s & Hs & H). exists s. split; [assumption|]. apply filter_In. tauto.
    - unfold R. unfold nt2_nonhybrid. f_equal. rewrite ntrace_sum, <- (len2 px py pz Fp). unfold Ls. change NSWEBF with sides3.
      clear. induction sides3 as [|s l IH]; [reflexivity|]. cbn [map concat]. rewrite app_length, sum_cons. f_equal. exact IH.
  Qed.
End Three.
