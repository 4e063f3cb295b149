(** Proofs about NumModel: the number of dofs of a box, and boxes made by the mesh of one region. *)
From Coq Require Import List Arith Bool Lia Relations.
From Verif Require Import Prelude PreludeProofs SpaceModel SpaceSpec SpaceProofs MeshModel MeshSpec MeshProofs MeshProofs2 MeshProofs3 MeshMapModel MeshMapSpec MeshMapProofs MeshMapProofs2 MeshMapProofs3 TraceModel TraceProofs TraceProofs2 TraceProofs3 NumModel NumSpec NumProofs NumProofs2 NumProofs3 NumProofs4.
Import ListNotations.

Lemma rel_length {A B} (R : A -> B -> Prop) : forall (l : list A) (m : list B), NoDup l -> (forall x, In x l -> exists y, In y m /\ R x y) ->
  (forall x x' y, In x l -> In x' l -> In y m -> R x y -> R x' y -> x = x') -> length l <= length m.
Proof.
  induction l as [|x l IH]; intros m ND T I; [cbn; lia|]. inversion ND as [|? ? Nx ND']; subst. destruct (T x (or_introl eq_refl)) as (y & Hy & HR).
  apply in_split in Hy. destruct Hy as (m1 & m2 & ->). rewrite app_length. cbn [length]. assert (K : length l <= length (m1 ++ m2)).
  { apply IH; [exact ND'| |].
    - intros x' Hx'. destruct (T x' (or_intror Hx')) as (y' & Hy' & HR'). exists y'. split; [|exact HR']. apply in_app_iff in Hy'. apply in_app_iff. destruct Hy' as [Hy'|[<-|Hy']]; auto.
      exfalso. apply Nx. rewrite (I x x' y); auto; [now left|now right|apply in_app_iff; right; now left].
    - intros a b c Ha Hb Hc. apply I; try (now right). apply in_app_iff in Hc. apply in_app_iff. destruct Hc; [now left|right; now right]. }
  rewrite app_length in K. lia.
Qed.
Definition gcells (sz : ctype -> list nat) (ts : list ctype) : list SpaceSpec.cell := flat_map (fun t => map (combine t) (grid (sz t))) ts.
Lemma in_gcells sz ts g : (forall t, In t ts -> length (sz t) = length t) -> (In g (gcells sz ts) <-> In (map fst g) ts /\ Forall2 lt (map snd g) (sz (map fst g))).
Proof.
  intros HL. unfold gcells. rewrite in_flat_map. split.
  - intros (t & Ht & H). apply in_map_iff in H. destruct H as (i & <- & Hi). apply in_grid in Hi. assert (Li := inb_length _ _ Hi). rewrite HL in Li by exact Ht.
    rewrite map_fst_combine, map_snd_combine by exact Li. split; [exact Ht|]. apply inb_lt. exact Hi.
  - intros [Ht F]. exists (map fst g). split; [exact Ht|]. apply in_map_iff. exists (map snd g). split; [apply combine_map_fst_snd|]. apply in_grid, inb_lt. exact F.
Qed.
Lemma NoDup_gcells sz ts : NoDup ts -> (forall t, In t ts -> length (sz t) = length t) -> NoDup (gcells sz ts).
Proof.
  intros N HL. unfold gcells. apply NoDup_flat_map; [exact N| |].
  - intros t Ht. apply NoDup_map_inj; [|apply NoDup_grid]. intros i i' Hi Hi' E. apply in_grid, inb_length in Hi, Hi'. rewrite HL in Hi, Hi' by exact Ht.
    rewrite <- (map_snd_combine t i), <- (map_snd_combine t i') by assumption. rewrite E. reflexivity.
  - intros t t' g Ht Ht' H H'. apply in_map_iff in H, H'. destruct H as (i & <- & Hi), H' as (i' & E & Hi'). apply in_grid, inb_length in Hi, Hi'. rewrite HL in Hi, Hi' by assumption.
    rewrite <- (map_fst_combine t i), <- (map_fst_combine t' i') by assumption. rewrite E. reflexivity.
Qed.
Lemma length_gcells sz ts : length (gcells sz ts) = sum (map (fun t => fold_right Nat.mul 1 (sz t)) ts).
Proof.
  unfold gcells. induction ts as [|t ts IH]; [reflexivity|]. cbn [flat_map map]. rewrite app_length, sum_cons, map_length, length_grid. f_equal. exact IH.
Qed.

Section Count.
  Variables (k : nform) (lay p : list nat) (per : nat -> bool) (num : list nat -> nat) (N : nat).
  Hypothesis Hd : length lay = length p.
  Hypothesis Hp : Forall (fun n => 1 <= n) p.
  Hypothesis Hl : Forall (fun n => 1 <= n) lay.
  Hypothesis Hbij : bijective lay 0 N num.
  Let ts := types k (length p).
  Let TO : SpaceProofs.types_ok p ts := types_are_ok k p.
  Variables (gm : list (nat * list nat)) (K : nat).
  Hypothesis HT : total p ts N gm.
  Hypothesis HK : consecutive gm K.
  Hypothesis HC : conforming p ts N gm (same_box lay p per num).
  Let GC := gcells (box_sizes lay p per) ts.
  Lemma box_sizes_len t : In t ts -> length (box_sizes lay p per t) = length t.
  Proof. intros H. unfold box_sizes. rewrite map_length, seq_length. symmetry. apply (types_len k). exact H. Qed.
  Lemma lay_nth a : a < length p -> 1 <= nth a lay 0. Proof. intros H. apply (proj1 (Forall_forall _ _) Hl). apply nth_In. lia. Qed.
  Lemma pn a : a < length p -> 1 <= nth a p 0. Proof. intros H. apply (proj1 (Forall_forall _ _) Hp). apply nth_In. lia. Qed.
  Lemma sizes_nth t a : a < length p -> nth a (box_sizes lay p per t) 0 = nth a lay 0 * nth a p 0 + (if nth a t true || per a then 0 else 1).
  Proof. intros H. unfold box_sizes. apply nth_error_nth. rewrite nth_map_seq_lt by exact H. reflexivity. Qed.
  Lemma map_fst_nth (g : SpaceSpec.cell) a : a < length g -> nth a (map fst g) true = fst (nth a g (false, 0)).
  Proof. intros H. apply (nth_map_lt fst g a true (false, 0)). exact H. Qed.
  Lemma map_snd_nth (g : SpaceSpec.cell) a : a < length g -> nth a (map snd g) 0 = snd (nth a g (false, 0)).
  Proof. intros H. apply (nth_map_lt snd g a 0 (false, 0)). exact H. Qed.
  Lemma box_cell_in idx x : Forall2 lt idx lay -> In x (cells p ts) -> In (box_cell lay p per idx x) GC.
  Proof.
    intros F Hx. apply cell_axes in Hx; [|exact TO]. destruct Hx as (Lx & Ht & Fx). apply in_gcells; [apply box_sizes_len|].
    assert (E : map fst (box_cell lay p per idx x) = map fst x).
    { apply nth_ext with (d := true) (d' := true); [rewrite !map_length, box_cell_length; lia|]. rewrite map_length, box_cell_length. intros a Ha. rewrite !map_fst_nth by (rewrite ?box_cell_length; lia). rewrite box_cell_nth by exact Ha. reflexivity. }
    rewrite E. split; [exact Ht|]. assert (LB : length (box_sizes lay p per (map fst x)) = length p) by (rewrite (box_sizes_len _ Ht), map_length; exact Lx).
    apply F2_lt_intro; [rewrite map_length, box_cell_length; lia|]. intros a Ha. rewrite LB in Ha. rewrite sizes_nth by exact Ha. rewrite map_snd_nth by (rewrite box_cell_length; exact Ha). rewrite box_cell_nth by exact Ha. cbn [fst snd].
    rewrite map_fst_nth by lia. specialize (Fx a Ha). unfold ok_factor in Fx. destruct (nth a x (false, 0)) as [b i]. cbn [fst snd] in *. assert (P1 := pn a Ha). assert (L1 := lay_nth a Ha). assert (X1 := F2_lt_nth _ _ a F ltac:(lia)).
    unfold coord. destruct (per a).
    - rewrite orb_true_r. rewrite Nat.add_0_r. apply Nat.mod_upper_bound. nia.
    - rewrite orb_false_r. destruct b; [|assert (B := coord_bound (nth a lay 0) (nth a p 0) (nth a idx 0) i X1 Fx); lia].
      assert ((nth a idx 0 + 1) * nth a p 0 <= nth a lay 0 * nth a p 0) by (apply Nat.mul_le_mono_r; lia). lia.
  Qed.
  Lemma box_cell_onto g : In g GC -> exists idx x, Forall2 lt idx lay /\ In x (cells p ts) /\ box_cell lay p per idx x = g.
  Proof.
    intros H. apply in_gcells in H; [|apply box_sizes_len]. destruct H as [Ht F]. assert (Lt := types_len k _ _ Ht). rewrite map_length in Lt.
    assert (G : forall a, a < length p -> snd (nth a g (false, 0)) < nth a lay 0 * nth a p 0 + (if fst (nth a g (false, 0)) || per a then 0 else 1)).
    { intros a Ha. assert (Z := F2_lt_nth _ _ a F ltac:(rewrite (box_sizes_len _ Ht), map_length; lia)). rewrite sizes_nth in Z by exact Ha. rewrite map_snd_nth, map_fst_nth in Z by lia. exact Z. }
    set (X := fun a => if snd (nth a g (false, 0)) =? nth a lay 0 * nth a p 0 then nth a lay 0 - 1 else snd (nth a g (false, 0)) / nth a p 0).
    assert (HX : forall a, a < length p -> X a < nth a lay 0 /\ X a * nth a p 0 <= snd (nth a g (false, 0)) /\ ok_factor (nth a p 0) (fst (nth a g (false, 0)), snd (nth a g (false, 0)) - X a * nth a p 0) /\
      coord (nth a lay 0) (nth a p 0) (per a) (X a) (snd (nth a g (false, 0)) - X a * nth a p 0) = snd (nth a g (false, 0))).
    { intros a Ha. specialize (G a Ha). assert (P1 := pn a Ha). assert (L1 := lay_nth a Ha). unfold X. destruct (nth a g (false, 0)) as [b c]. cbn [fst snd] in *. set (n := nth a lay 0) in *. set (q := nth a p 0) in *. unfold ok_factor, coord. cbn [fst snd].
      destruct (Nat.eqb_spec c (n * q)) as [->|Nc].
      - destruct (b || per a) eqn:BP; [lia|]. apply orb_false_iff in BP. destruct BP as [-> ->]. assert ((n - 1) * q + q = n * q) by nia. repeat split; lia.
      - assert (Lc : c < n * q) by (destruct (b || per a); lia). assert (D := Nat.div_mod c q ltac:(lia)). assert (M := Nat.mod_upper_bound c q ltac:(lia)).
        assert (DL : c / q < n) by (apply Nat.div_lt_upper_bound; lia). assert (E : c / q * q <= c) by lia. refine (conj DL (conj E (conj _ _))).
        + destruct b; lia.
        + replace (c / q * q + (c - c / q * q)) with c by lia. destruct (per a); [apply Nat.mod_small; exact Lc|reflexivity]. }
    exists (map X (seq 0 (length p))), (map (fun a => (fst (nth a g (false, 0)), snd (nth a g (false, 0)) - X a * nth a p 0)) (seq 0 (length p))).
    assert (NX : forall a, a < length p -> nth a (map X (seq 0 (length p))) 0 = X a) by (intros a Ha; apply nth_error_nth; apply nth_map_seq_lt; exact Ha).
    set (x := map (fun a => (fst (nth a g (false, 0)), snd (nth a g (false, 0)) - X a * nth a p 0)) (seq 0 (length p))).
    assert (Nx : forall a, a < length p -> nth a x (false, 0) = (fst (nth a g (false, 0)), snd (nth a g (false, 0)) - X a * nth a p 0)) by (intros a Ha; unfold x; apply nth_error_nth; rewrite nth_map_seq_lt by exact Ha; reflexivity).
    assert (Lx : length x = length p) by (unfold x; rewrite map_length, seq_length; reflexivity).
    refine (conj _ (conj _ _)).
    - apply F2_lt_intro; [rewrite map_length, seq_length; lia|]. intros a Ha. rewrite Hd in Ha. rewrite NX by exact Ha. apply HX. exact Ha.
    - apply cell_axes; [exact TO|]. refine (conj Lx (conj _ _)).
      + replace (map fst x) with (map fst g); [exact Ht|]. apply nth_ext with (d := true) (d' := true); [rewrite !map_length; lia|]. rewrite map_length, Lt. intros a Ha. rewrite !map_fst_nth by lia. rewrite Nx by exact Ha. reflexivity.
      + intros a Ha. rewrite Nx by exact Ha. apply HX. exact Ha.
    - apply nth_cell_ext; [rewrite box_cell_length; lia|]. rewrite box_cell_length. intros a Ha. rewrite box_cell_nth by exact Ha. rewrite NX, Nx by exact Ha. cbn [fst snd].
      destruct (HX a Ha) as (_ & _ & _ & ->). symmetry. apply surjective_pairing.
  Qed.
  Lemma numbered_ex a : cell_of p ts N a -> exists n, numbered p ts gm a n /\ n < K.
  Proof.
    destruct a as [e x]. intros [He Hx]. cbn [fst snd] in *. destruct HT as [T1 T2]. assert (X : In e (map fst gm)) by (rewrite T1; apply in_seq; lia). apply in_map_iff in X. destruct X as ([e' v] & <- & Hv).
    assert (Lv := T2 _ _ Hv). apply In_nth_error in Hx. destruct Hx as [i Hi]. destruct (nth_error v i) as [n|] eqn:En.
    - exists n. split; [exists v, i; auto|]. apply HK. exists e', v. split; [exact Hv|]. eapply nth_error_In. exact En.
    - exfalso. apply nth_error_None in En. assert (i < length (cells p ts)) by (apply nth_error_Some; congruence). lia.
  Qed.
  Lemma number_of n : n < K -> exists a, cell_of p ts N a /\ numbered p ts gm a n.
  Proof.
    intros Hn. apply HK in Hn. destruct Hn as (e & v & Hv & Hn). destruct HT as [T1 T2]. assert (Lv := T2 _ _ Hv). apply In_nth_error in Hn. destruct Hn as [i Hi].
    assert (i < length v) by (apply nth_error_Some; congruence). destruct (nth_error (cells p ts) i) as [x|] eqn:Ex; [|apply nth_error_None in Ex; lia].
    exists (e, x). split; [|exists v, i; auto]. split; [|eapply nth_error_In; exact Ex]. assert (X := in_map fst _ _ Hv). rewrite T1 in X. apply in_seq in X. cbn [fst] in *. lia.
  Qed.
  Lemma numbered_num_lt a n : numbered p ts gm a n -> n < K.
  Proof. intros (v & i & Hv & _ & Hn). apply HK. exists (fst a), v. split; [exact Hv|]. eapply nth_error_In. exact Hn. Qed.
  Definition RG (n : nat) (g : SpaceSpec.cell) : Prop := exists idx x, Forall2 lt idx lay /\ In x (cells p ts) /\ numbered p ts gm (num idx, x) n /\ box_cell lay p per idx x = g.
  Lemma num_cell idx x : Forall2 lt idx lay -> In x (cells p ts) -> cell_of p ts N (num idx, x).
  Proof. intros F Hx. split; [|exact Hx]. cbn [fst]. destruct Hbij as (B & _). specialize (B idx F). lia. Qed.
  Theorem box_number : K = box_count lay p per ts.
  Proof.
    assert (NDG : NoDup GC) by (apply NoDup_gcells; [apply types_nodup|apply box_sizes_len]). unfold box_count. rewrite <- length_gcells. fold GC. rewrite <- (seq_length K 0).
    assert (R1 : forall n g n', RG n g -> RG n' g -> n = n').
    { intros n g n' (i & x & F & Hx & A & <-) (i' & x' & F' & Hx' & A' & E). apply (HC (num i, x) (num i', x') n n' (num_cell i x F Hx) (num_cell i' x' F' Hx') A A').
      exists i, i'. refine (conj F (conj F' (conj eq_refl (conj eq_refl _)))). symmetry. exact E. }
    assert (R2 : forall n g g', RG n g -> RG n g' -> g = g').
    { intros n g g' (i & x & F & Hx & A & <-) (i' & x' & F' & Hx' & A' & <-). destruct (proj1 (HC (num i, x) (num i', x') n n (num_cell i x F Hx) (num_cell i' x' F' Hx') A A') eq_refl) as (j & j' & G & G' & E & E' & Q).
      cbn [fst snd] in *. destruct Hbij as (_ & _ & I). apply I in E, E'; auto. subst. exact Q. }
    apply Nat.le_antisymm.
    - apply (rel_length RG); [apply seq_NoDup| |intros; eapply R1; eassumption]. intros n Hn. apply in_seq in Hn. destruct (number_of n ltac:(lia)) as ([e x] & [He Hx] & A). cbn [fst snd] in *.
      destruct Hbij as (_ & B & _). destruct (B e ltac:(lia)) as (idx & F & <-). exists (box_cell lay p per idx x). split; [apply box_cell_in; assumption|]. exists idx, x. auto.
    - apply (rel_length (fun g n => RG n g)); [exact NDG| |intros; eapply R2; eassumption]. intros g Hg. destruct (box_cell_onto g Hg) as (idx & x & F & Hx & E).
      destruct (numbered_ex (num idx, x) (num_cell idx x F Hx)) as (n & A & Ln). exists n. split; [apply in_seq; lia|]. exists idx, x. auto.
  Qed.
End Count.

Lemma box_next_fun lay per idx ax up i1 i2 : Forall2 lt idx lay -> Forall2 lt i1 lay -> Forall2 lt i2 lay -> ax < length lay ->
  box_next lay per idx ax up i1 -> box_next lay per idx ax up i2 -> i1 = i2.
Proof.
  intros F F1 F2 Ha (L1 & O1 & C1) (L2 & O2 & C2). assert (X := F2_lt_nth _ _ ax F Ha). assert (X1 := F2_lt_nth _ _ ax F1 Ha). assert (X2 := F2_lt_nth _ _ ax F2 Ha).
  apply nth_ext with (d := 0) (d' := 0); [congruence|]. intros b _. destruct (Nat.eq_dec b ax) as [->|N]; [|rewrite O1, O2 by exact N; reflexivity].
  unfold moved, extreme in *. destruct up; cbn [negb] in *; destruct C1 as [C1|(_ & C1 & D1)], C2 as [C2|(_ & C2 & D2)]; lia.
Qed.
Section OneRegion.
  Context (corner : nat -> nat -> nat) (bnames : list nat) (bsides : list (nat * (nat * nat))) (m : rmap) (g : nat -> list nat -> nat) (lay : list nat) (sc : nat -> scheme).
  Context (bps : list (nat * nat)) (pairs : list ((nat * side) * (nat * side))).
  Context (HB : forall b, In b bnames -> 1 <= b) (HS : forall x, In x bsides -> In (fst x) bnames /\ snd (snd x) < 6).
  Context (E : region_map corner 1 bnames bsides = Some m).
  Context (L3 : length lay = 3) (HP1 : Forall (fun n => 1 <= n) lay).
  Context (HL : lens_ok (prodl lay) (sc 0)).
  Context (HP : boundary_pairs bsides bps = Some pairs).
  Notation lays := [lay].
  Notation num := (fun r => option_map fst (region_numbering g lays sc r)).
  Notation rm := (fun r i => name_of (m r i)).
  Context (SIZE : nat) (rs : list (list nat)) (ms : list emap) (PA : partition SIZE (prodl lay) rs)
          (HM : Forall2 (fun els mm => core_map num lays rm bnames pairs els = Some mm) rs ms).
  Context (per : nat -> bool) (HPer : forall a, a < 3 -> (per a = true <-> periodic_axis pairs a)).
  Lemma one_box : exists A para, region_numbering g lays sc 0 = Some (A, para) /\ bijective lay 0 (prodl lay) (at_ A) /\ increasing lay (at_ A) /\
    map fst (concat ms) = seq 0 (prodl lay) /\ (forall e row, In (e, row) (concat ms) -> length row = 6) /\
    forall idx ax up f, Forall2 lt idx lay -> ax < 3 -> (nbr_of (concat ms) (at_ A idx) ax up f <-> exists idx', Forall2 lt idx' lay /\ f = at_ A idx' /\ box_next lay per idx ax up idx').
  Proof.
    assert (H3 : Forall (fun lay => length lay = 3 /\ Forall (fun n => 1 <= n) lay) lays) by (constructor; auto).
    assert (HL' : forall r l, nth_error lays r = Some l -> lens_ok (prodl l) (sc r)) by (intros [|[|r]] l H; try discriminate; injection H as <-; exact HL).
    assert (SL : sum (map prodl lays) = prodl lay) by (cbn; lia). assert (PA' : partition SIZE (sum (map prodl lays)) rs) by (rewrite SL; exact PA).
    destruct (region_numbering_ok g lays sc 0 lay eq_refl L3 HP1 HL) as (A & para & EA & _ & BJ & IC). exists A, para. split; [exact EA|].
    change (sum (map prodl (firstn 0 lays))) with 0 in BJ. split; [exact BJ|]. split; [exact IC|].
    destruct (mesh_symmetric corner bnames bsides m g lays sc bps pairs HB HS E H3 HL' HP SIZE rs ms PA' HM) as [K SY]. rewrite SL in K. split; [exact K|]. split; [intros e row H; apply (SY e row H)|].
    assert (ND := bsides_NoDup corner 1 bnames bsides HB HS m E).
    destruct (boundary_pairs_ok bsides bps pairs HP ND ltac:(intros x Hx; exact (proj2 (HS x Hx)))) as (_ & PB & _).
    assert (R0 : forall q r i, In q pairs -> In (r, i) (psides q) -> r = 0).
    { intros q r i Hq Hk. destruct (PB q r i Hq Hk) as (b & Hb). destruct (map_boundary corner 1 bnames bsides HB HS m E b r i Hb) as (Z & _). lia. }
    assert (EQ : forall r1 s1 r2 s2, In ((r1, s1), (r2, s2)) pairs -> forall a, a <> fst s1 -> nth a (nth r1 lays []) 0 = nth a (nth r2 lays []) 0).
    { intros r1 s1 r2 s2 Hq a _. assert (Z1 := R0 _ r1 _ Hq ltac:(left; reflexivity)). assert (Z2 := R0 _ r2 _ Hq ltac:(right; left; reflexivity)). rewrite Z1, Z2. reflexivity. }
    assert (WH := mesh_where corner bnames bsides m g lays sc bps pairs HB HS E H3 HL' HP SIZE rs ms PA' HM EQ).
    assert (LC : forall e r idx, located num lays e r idx -> r = 0 /\ Forall2 lt idx lay /\ at_ A idx = e).
    { intros e r idx (l & a & N1 & N2 & N3 & N4). destruct r as [|[|r]]; try discriminate. injection N1 as <-. rewrite EA in N2. cbn in N2. injection N2 as <-. auto. }
    destruct BJ as (B1 & B2 & B3).
    assert (FWD : forall idx ax up row, Forall2 lt idx lay -> ax < 3 -> In (at_ A idx, row) (concat ms) -> exists v, nth_error row (2 * ax + (if up : bool then 1 else 0)) = Some v /\
      match v with
      | El f => exists idx', Forall2 lt idx' lay /\ f = at_ A idx' /\ box_next lay per idx ax up idx'
      | Bd b => extreme up (nth ax lay 0) (nth ax idx 0) /\ per ax = false
      end).
    { intros idx ax up row F Ha Hr. destruct (WH _ row ax up Hr Ha) as (r & idx0 & Lo & v & Ev & C). exists v. split; [exact Ev|]. apply LC in Lo. destruct Lo as (-> & F0 & E0). apply B3 in E0; auto. subst idx0.
      destruct v as [f|b].
      - destruct C as (r' & idx' & Lo & NX). apply LC in Lo. destruct Lo as (-> & F' & E'). exists idx'. refine (conj F' (conj (eq_sym E') _)).
        inversion NX as [i2 Z1 Z2 Z3|r2 i2 X At Z1 X2 Z3]; subst; refine (conj Z1 (conj Z3 _)); [left; exact Z2|]. right. cbn [nth] in X, X2. refine (conj _ (conj X X2)).
        destruct At as [(q & Hq & Q)|(_ & At & NB)].
        + apply HPer; [exact Ha|]. exists q. split; [exact Hq|]. unfold facing in Q. destruct up.
          * replace (Nat.even (2 * ax + 1)) with false in Q by (symmetry; rewrite Nat.even_add, Nat.even_mul; reflexivity). replace (2 * ax + 1 - 1) with (2 * ax) in Q by lia. tauto.
          * replace (Nat.even (2 * ax + 0)) with true in Q by (symmetry; rewrite Nat.even_add, Nat.even_mul; reflexivity). rewrite Nat.add_0_r in Q. tauto.
        + exfalso. destruct (map_side corner 1 bnames bsides HB HS m E 0 (2 * ax + (if up then 1 else 0)) ltac:(lia) ltac:(destruct up; lia)) as (n' & En' & [(C & _)|(C & D & _)]); rewrite En' in At; cbn in At; injection At as ->; contradiction.
      - cbn [nth] in C. destruct C as (X & _ & _ & NP). split; [exact X|]. destruct (per ax) eqn:P; [|reflexivity]. exfalso. apply HPer in P; [|exact Ha]. destruct P as (q & Hq & Q). apply (NP q Hq). destruct Q as [-> | ->]; destruct up; cbn [In]; rewrite ?Nat.add_0_r; auto. }
    intros idx ax up f F Ha. split.
    - intros (row & Hr & En). destruct (FWD idx ax up row F Ha Hr) as (v & Ev & C). assert (v = El f) by congruence. subst v. exact C.
    - intros (idx' & F' & -> & BN). assert (IK : In (at_ A idx) (map fst (concat ms))) by (rewrite K; apply in_seq; specialize (B1 idx F); lia). apply in_map_iff in IK. destruct IK as ([e row] & Ee & Hr). cbn [fst] in Ee. subst e.
      exists row. split; [exact Hr|]. destruct (FWD idx ax up row F Ha Hr) as (v & Ev & C). rewrite Ev. f_equal. destruct v as [f|b].
      + destruct C as (i2 & F2 & -> & BN2). rewrite (box_next_fun lay per idx ax up i2 idx'); auto; lia.
      + exfalso. destruct C as [X NPr]. destruct BN as (_ & _ & [M|(P & _)]); [|congruence]. assert (Y := F2_lt_nth _ _ ax F' ltac:(lia)). unfold moved, extreme in *. destruct up; lia.
  Qed.
  Context (k : nform) (p : list nat) (Hp3 : length p = 3) (Hp : Forall (fun n => 1 <= n) p) (H2 : forall a, a < 3 -> periodic_axis pairs a -> 2 <= nth a lay 0).
  Theorem one_region : exists A para gms, region_numbering g lays sc 0 = Some (A, para) /\ naive k p ms = Some gms /\ map (map fst) gms = map (map fst) ms /\
    total p (types k 3) (prodl lay) (concat gms) /\ consecutive (concat gms) (box_count lay p per (types k 3)) /\ conforming p (types k 3) (prodl lay) (concat gms) (same_box lay p per (at_ A)).
  Proof.
    destruct one_box as (A & para & EA & BJ & IC & KK & L6 & BX). assert (Hd : length lay = length p) by lia.
    assert (Hper : forall a, a < length p -> per a = true -> 2 <= nth a lay 0) by (intros a Ha P; apply H2; [lia|]; apply HPer; [lia|exact P]).
    assert (HR' : forall e row, In (e, row) (concat ms) -> length row = 2 * length p) by (intros e row H; rewrite (L6 e row H); lia).
    destruct (box_conforming k lay p per (at_ A) ms (prodl lay) Hd Hp Hper BJ IC KK HR' ltac:(intros; apply BX; [assumption|lia])) as (gms & EG & KM & TT & CC).
    destruct (naive_total k p ms (prodl lay) KK HR' gms EG) as (_ & _ & K & CK). assert (Z := box_number k lay p per (at_ A) (prodl lay) Hd Hp HP1 BJ (concat gms) K TT CK CC).
    rewrite Hp3 in *. subst K. exists A, para, gms. auto 10.
  Qed.
End OneRegion.

(** * node and edge elements *)
Lemma global_num_ok gms K : consecutive (concat gms) K -> global_num gms = K.
Proof.
  intros C. unfold global_num. apply Nat.le_antisymm.
  - apply maxl_le. intros x Hx. apply in_map_iff in Hx. destruct Hx as (gm & <- & Hg). apply maxl_le. intros x Hx. apply in_map_iff in Hx. destruct Hx as ([e v] & <- & He). apply maxl_le. intros x Hx.
    cbn [snd] in Hx. apply in_map_iff in Hx. destruct Hx as (n & <- & Hn). apply C. exists e, v. split; [apply in_concat; eauto|exact Hn].
  - destruct K as [|K]; [lia|]. destruct (proj1 (C K) ltac:(lia)) as (e & v & He & Hv). apply in_concat in He. destruct He as (gm & Hg & He).
    assert (A := maxl_in (map S v) (S K) ltac:(apply in_map; exact Hv)).
    assert (B := maxl_in (map (fun ev => maxl (map S (snd ev))) gm) (maxl (map S v)) ltac:(apply in_map_iff; exists (e, v); auto)).
    assert (D := maxl_in (map (fun gm => maxl (map (fun ev => maxl (map S (snd ev))) gm)) gms) _ ltac:(apply in_map_iff; exists gm; split; [reflexivity|exact Hg])). cbn beta in D. lia.
Qed.
Lemma edges_four lay per : length lay = 3 -> Forall (fun n => 1 <= n) lay -> (forall a, a < 3 -> per a = true -> 2 <= nth a lay 0) -> 4 <= box_count lay [1; 1; 1] per (edge_types 3).
Proof.
  intros L3 F H. destruct lay as [|a [|b [|c [|]]]]; try discriminate. inversion F as [|? ? Fa F']; subst. inversion F' as [|? ? Fb F'']; subst. inversion F'' as [|? ? Fc _]; subst.
  assert (Hb := H 1 ltac:(lia)). assert (Hc := H 2 ltac:(lia)). cbn [nth] in *. unfold box_count, edge_types, box_sizes. cbn. rewrite !Nat.mul_1_r, !Nat.add_0_r. 
  set (b' := b + (if per 1 then 0 else 1)). set (c' := c + (if per 2 then 0 else 1)). assert (2 <= b') by (unfold b'; destruct (per 1); [specialize (Hb eq_refl)|]; lia). assert (2 <= c') by (unfold c'; destruct (per 2); [specialize (Hc eq_refl)|]; lia).
  apply Nat.le_trans with (a * (b' * c')); [nia|apply Nat.le_add_r].
Qed.
Theorem one_region_elements corner bnames bsides m g lay sc bps pairs :
  (forall b, In b bnames -> 1 <= b) -> (forall x, In x bsides -> In (fst x) bnames /\ snd (snd x) < 6) -> region_map corner 1 bnames bsides = Some m ->
  length lay = 3 -> Forall (fun n => 1 <= n) lay -> lens_ok (prodl lay) (sc 0) -> boundary_pairs bsides bps = Some pairs ->
  let num r := option_map fst (region_numbering g [lay] sc r) in let rm r i := name_of (m r i) in
  forall SIZE rs ms, partition SIZE (prodl lay) rs -> Forall2 (fun els mm => core_map num [lay] rm bnames pairs els = Some mm) rs ms ->
  forall per : nat -> bool, (forall a, a < 3 -> (per a = true <-> periodic_axis pairs a)) -> (forall a, a < 3 -> periodic_axis pairs a -> 2 <= nth a lay 0) ->
  exists A para gn ge, region_numbering g [lay] sc 0 = Some (A, para) /\
    node_elements ms = Some (gn, box_count lay [1; 1; 1] per nodes3) /\ total [1; 1; 1] nodes3 (prodl lay) (concat gn) /\ conforming [1; 1; 1] nodes3 (prodl lay) (concat gn) (same_box lay [1; 1; 1] per (at_ A)) /\
    edge_elements ms = Some (ge, box_count lay [1; 1; 1] per edges3) /\ total [1; 1; 1] edges3 (prodl lay) (concat ge) /\ conforming [1; 1; 1] edges3 (prodl lay) (concat ge) (same_box lay [1; 1; 1] per (at_ A)).
Proof.
  intros HB HS E L3 HP1 HL HP num rm SIZE rs ms PA HM per HPer H2. assert (P1 : Forall (fun n => 1 <= n) [1; 1; 1]) by (repeat constructor).
  destruct (one_region corner bnames bsides m g lay sc bps pairs HB HS E L3 HP1 HL HP SIZE rs ms PA HM per HPer F0 [1; 1; 1] eq_refl P1 H2) as (A & para & gn & EA & EN & _ & TN & KN & CN).
  destruct (one_region corner bnames bsides m g lay sc bps pairs HB HS E L3 HP1 HL HP SIZE rs ms PA HM per HPer F1 [1; 1; 1] eq_refl P1 H2) as (A' & para' & ge & EA' & EE & _ & TE & KE & CE).
  rewrite EA in EA'. injection EA' as <- <-. exists A, para, gn, ge. unfold node_elements, edge_elements. rewrite EN, EE. cbn [option_map]. rewrite (global_num_ok _ _ KN), (global_num_ok _ _ KE).
  assert (F4 : 4 <= box_count lay [1; 1; 1] per (edge_types 3)) by (apply edges_four; auto; intros a Ha P; apply H2; [exact Ha|]; apply HPer; assumption).
  change (types F1 3) with (edge_types 3). rewrite (proj2 (Nat.leb_le _ _) F4).
  change nodes3 with (types F0 3). change edges3 with (types F1 3). auto 10.
Qed.
(** * hybrid numberings *)
Lemma hybrid_ok nbasis ms N : map fst (concat ms) = seq 0 N -> 1 <= nbasis ->
  let gm := concat (hybrid_numbering nbasis ms) in
  map fst gm = seq 0 N /\ (forall e v, In (e, v) gm -> length v = nbasis) /\ consecutive gm (N * nbasis) /\
  forall e e' v v' i i' n, In (e, v) gm -> In (e', v') gm -> nth_error v i = Some n -> nth_error v' i' = Some n -> e = e' /\ i = i'.
Proof.
  intros HL Hb gm. set (h := fun er : nat * list beside => (fst er, seq (fst er * nbasis) ((fst er + 1) * nbasis - fst er * nbasis))).
  assert (G : gm = map h (concat ms)) by (unfold gm, hybrid_numbering; rewrite concat_map; reflexivity).
  assert (K : map fst gm = seq 0 N) by (rewrite G, map_map; exact HL).
  assert (IN : forall e v, In (e, v) gm -> e < N /\ v = seq (e * nbasis) nbasis).
  { intros e v H. split; [assert (X := in_map fst _ _ H); rewrite K in X; apply in_seq in X; cbn [fst] in X; lia|]. rewrite G in H. apply in_map_iff in H. destruct H as (er & [= <- <-] & _). f_equal. lia. }
  refine (conj K (conj _ (conj _ _))).
  - intros e v H. apply IN in H. destruct H as [_ ->]. apply seq_length.
  - intros n. split.
    + intros Hn. assert (X : In (n / nbasis) (map fst gm)) by (rewrite K; apply in_seq; split; [lia|apply Nat.div_lt_upper_bound; lia]). apply in_map_iff in X. destruct X as ([e v] & E & H). exists e, v. split; [exact H|].
      apply IN in H. destruct H as [_ ->]. cbn [fst] in E. subst e. apply in_seq. assert (D := Nat.div_mod n nbasis ltac:(lia)). assert (M := Nat.mod_upper_bound n nbasis ltac:(lia)). lia.
    + intros (e & v & H & Hn). apply IN in H. destruct H as [He ->]. apply in_seq in Hn. assert ((e + 1) * nbasis <= N * nbasis) by (apply Nat.mul_le_mono_r; lia). lia.
  - intros e e' v v' i i' n H H' Hi Hi'. apply IN in H, H'. destruct H as [He ->], H' as [He' ->].
    assert (Li : i < nbasis) by (rewrite <- (seq_length nbasis (e * nbasis)); apply nth_error_Some; congruence). assert (Li' : i' < nbasis) by (rewrite <- (seq_length nbasis (e' * nbasis)); apply nth_error_Some; congruence).
    rewrite nth_error_seq_lt in Hi, Hi' by assumption. injection Hi as <-. injection Hi' as E. assert (e = e') by nia. subst e'. split; [reflexivity|lia].
Qed.
