(** The element map of a mesh, and the core of an element. *)
From Coq Require Import List Arith Bool Lia.
From Verif Require Import Prelude PreludeProofs SpaceModel SpaceProofs MeshModel MeshSpec MeshMapSpec MeshProofs MeshProofs2 MeshMapModel MeshMapProofs MeshMapProofs2.
Import ListNotations.

Lemma side_index_of i : side_index (side_of i) = i.
Proof.
  unfold side_index, side_of. cbn [fst snd]. assert (D := Nat.div_mod_eq i 2). rewrite <- Nat.bit0_odd, Nat.bit0_eqb.
  assert (i mod 2 < 2) by (apply Nat.mod_upper_bound; lia). destruct (Nat.eqb_spec (i mod 2) 1); lia.
Qed.
Lemma distinct_NoDup l : distinct l = true -> NoDup l.
Proof.
  induction l as [|x l IH]; cbn; intros H; constructor; apply andb_prop in H; destruct H as (A & B); [|auto].
  intros G. apply mem_In in G. rewrite G in A. discriminate.
Qed.
Lemma sides_of_In bsides b r i : In (r, i) (sides_of bsides b) <-> In (b, (r, i)) bsides.
Proof.
  unfold sides_of. rewrite in_map_iff. split.
  - intros ((b', ri) & E & H). cbn in E. subst ri. apply filter_In in H. destruct H as (H & E). apply Nat.eqb_eq in E. cbn in E. subst b'. exact H.
  - intros H. exists (b, (r, i)). split; [reflexivity|]. apply filter_In. split; [exact H|]. apply Nat.eqb_refl.
Qed.
Lemma NoDup_sides bsides b : NoDup (map snd bsides) -> NoDup (sides_of bsides b).
Proof.
  unfold sides_of. induction bsides as [|[b' ri] l IH]; cbn [map filter]; intros ND; [constructor|]. inversion ND as [|? ? N1 N2]; subst. cbn [fst snd] in *.
  destruct (b' =? b); [|auto]. cbn [map snd]. constructor; [|auto]. intros G. apply N1. apply in_map_iff in G. destruct G as (x & <- & Hx). apply filter_In in Hx. apply in_map. tauto.
Qed.
Lemma interleave_NoDup {A} (l1 l2 : list A) : NoDup l1 -> NoDup l2 -> (forall x, In x l1 -> ~ In x l2) -> NoDup (flat_map (fun p => [fst p; snd p]) (combine l1 l2)).
Proof.
  intros N1. revert l2. induction N1 as [|x l1 Hx N1 IH]; intros l2 N2 D; [constructor|]. destruct l2 as [|y l2]; [constructor|]. inversion N2 as [|? ? Hy N2']; subst. cbn [combine flat_map fst snd app].
  assert (K : forall z, In z (flat_map (fun p => [fst p; snd p]) (combine l1 l2)) -> In z l1 \/ In z l2).
  { intros z H. apply in_flat_map in H. destruct H as ((u, v) & H & G). cbn in G. destruct G as [<-|[<-|[]]]; [left; exact (in_combine_l _ _ _ _ H)|right; exact (in_combine_r _ _ _ _ H)]. }
  constructor.
  - intros [E|G]; [apply (D x); [now left|now left]|]. destruct (K _ G) as [G1|G1]; [contradiction|]. apply (D x); [now left|now right].
  - constructor.
    + intros G. destruct (K _ G) as [G1|G1]; [|contradiction]. apply (D y); [now right|now left].
    + apply IH; [exact N2'|]. intros z Hz G. apply (D z); now right.
Qed.
Lemma boundary_pairs_ok bsides bps pairs : boundary_pairs bsides bps = Some pairs -> NoDup (map snd bsides) -> (forall x, In x bsides -> snd (snd x) < 6) ->
  NoDup (flat_map psides pairs) /\ (forall p r i, In p pairs -> In (r, i) (psides p) -> exists b, In (b, (r, i)) bsides) /\ (forall p, In p pairs -> fst (snd (fst p)) < 3).
Proof.
  unfold boundary_pairs. destruct (distinct _) eqn:D; [|discriminate]. intros H ND H6. apply distinct_NoDup in D. apply concat_some_ok in H. destruct H as (rs & F & ->).
  set (MK := fun p : (nat * nat) * (nat * nat) => ((fst (fst p), side_of (snd (fst p))), (fst (snd p), side_of (snd (snd p))))) in *.
  assert (PS : forall p, psides (MK p) = [fst p; snd p]).
  { intros [[r1 i1] [r2 i2]]. rewrite psides_eq. unfold MK. cbn [fst snd]. rewrite !side_index_of. reflexivity. }
  assert (F' : Forall2 (fun bb l => l = map MK (combine (sides_of bsides (fst bb)) (sides_of bsides (snd bb)))) bps rs).
  { clear - F. induction F as [|bb l bps rs E F IH]; constructor; [|exact IH]. destruct (_ =? _); [|discriminate]. injection E as <-. reflexivity. }
  assert (IN : forall p, In p (concat rs) -> exists bb q, In bb bps /\ p = MK q /\ In (fst q) (sides_of bsides (fst bb)) /\ In (snd q) (sides_of bsides (snd bb))).
  { clear - F'. induction F' as [|bb l bps rs E F IH]; intros p Hp; [contradiction|]. cbn [concat] in Hp. apply in_app_or in Hp. destruct Hp as [Hp|Hp].
    - subst l. apply in_map_iff in Hp. destruct Hp as ([u v] & <- & Hq). exists bb, (u, v). split; [now left|]. split; [reflexivity|]. split; [exact (in_combine_l _ _ _ _ Hq)|exact (in_combine_r _ _ _ _ Hq)].
    - destruct (IH p Hp) as (bb' & q & A & B). exists bb', q. split; [now right|exact B]. }
  split; [|split].
  - set (G := fun bb : nat * nat => flat_map (fun p => [fst p; snd p]) (combine (sides_of bsides (fst bb)) (sides_of bsides (snd bb)))).
    replace (flat_map psides (concat rs)) with (flat_map G bps).
    2:{ clear - F' PS. induction F' as [|bb l bps rs E F IH]; [reflexivity|]. cbn [flat_map concat]. rewrite flat_map_app, <- IH. f_equal. subst l. unfold G.
        induction (combine _ _) as [|q qs IHq]; [reflexivity|]. cbn [map flat_map]. rewrite PS, <- IHq. reflexivity. }
    set (T := fun k : nat * nat => option_map fst (find (fun x => (fst (snd x) =? fst k) && (snd (snd x) =? snd k)) bsides)).
    assert (TT : forall b r i, In (b, (r, i)) bsides -> T (r, i) = Some b).
    { intros b r i Hb. unfold T. cbn [fst snd]. clear - Hb ND. induction bsides as [|[b' [r' i']] l IH]; [contradiction|]. cbn [map snd] in ND. inversion ND as [|? ? N1 N2]; subst. cbn [find fst snd].
      destruct Hb as [[= -> -> ->]|Hb]; [rewrite !Nat.eqb_refl; reflexivity|]. destruct ((r' =? r) && (i' =? i)) eqn:E; [|auto]. apply andb_prop in E. destruct E as (E1 & E2). apply Nat.eqb_eq in E1, E2. subst r' i'.
      exfalso. apply N1. apply in_map_iff. exists (b, (r, i)). auto. }
    apply (NoDup_tagged G (fun bb => map Some [fst bb; snd bb]) T).
    + intros bb Hbb. apply interleave_NoDup; [apply NoDup_sides; exact ND|apply NoDup_sides; exact ND|]. intros [r i] A B. apply sides_of_In in A, B. apply TT in A, B. rewrite A in B. injection B as E.
      clear - D Hbb E. induction bps as [|b bps IH]; [contradiction|]. cbn [flat_map app] in D. inversion D as [|? ? D1 D2]; subst. inversion D2; subst. destruct Hbb as [->|Hbb]; [|auto]. apply D1. left. auto.
    + intros bb [r i] _ Hk. unfold G in Hk. apply in_flat_map in Hk. destruct Hk as ([u v] & Hq & Hk). cbn [fst snd] in Hk. cbn [map]. destruct Hk as [->|[->|[]]].
      * apply in_combine_l in Hq. apply sides_of_In in Hq. rewrite (TT _ _ _ Hq). now left.
      * apply in_combine_r in Hq. apply sides_of_In in Hq. rewrite (TT _ _ _ Hq). right. now left.
    + clear - D. replace (flat_map (fun bb : nat * nat => map Some [fst bb; snd bb]) bps) with (map Some (flat_map (fun bb => [fst bb; snd bb]) bps)).
      * apply FinFun.Injective_map_NoDup; [|exact D]. intros ? ? [= ->]. reflexivity.
      * clear. induction bps as [|q l IH]; [reflexivity|]. cbn [flat_map]. rewrite map_app, IH. reflexivity.
  - intros p r i Hp Hk. destruct (IN p Hp) as (bb & q & _ & -> & A & B). rewrite PS in Hk. destruct Hk as [E|[E|[]]]; [rewrite E in A; apply sides_of_In in A; eauto|rewrite E in B; apply sides_of_In in B; eauto].
  - intros p Hp. destruct (IN p Hp) as (bb & [[r i] q2] & _ & -> & A & _). cbn [fst snd] in *. apply sides_of_In in A. specialize (H6 _ A). cbn [fst snd] in H6. unfold MK, side_of. cbn [fst snd]. apply Nat.div_lt_upper_bound; lia.
Qed.

Section Mesh.
  Context (corner : nat -> nat -> nat) (bnames : list nat) (bsides : list (nat * (nat * nat))) (m : rmap) (g : nat -> list nat -> nat) (lays : list (list nat)) (sc : nat -> scheme).
  Context (bps : list (nat * nat)) (pairs : list ((nat * side) * (nat * side))).
  Context (HB : forall b, In b bnames -> length lays <= b) (HS : forall x, In x bsides -> In (fst x) bnames /\ snd (snd x) < 6).
  Context (E : region_map corner (length lays) bnames bsides = Some m).
  Context (H3 : Forall (fun lay => length lay = 3 /\ Forall (fun n => 1 <= n) lay) lays).
  Context (HL : forall r lay, nth_error lays r = Some lay -> lens_ok (prodl lay) (sc r)).
  Context (HP : boundary_pairs bsides bps = Some pairs).
  Notation num := (fun r => option_map fst (region_numbering g lays sc r)).
  Notation rm := (fun r i => name_of (m r i)).
  Lemma HN r lay : nth_error lays r = Some lay -> exists a, num r = Some a /\ shp a = lay /\ bijective lay (sum (map prodl (firstn r lays))) (prodl lay) (at_ a).
  Proof.
    intros El. destruct (proj1 (Forall_forall _ _) H3 lay (nth_error_In _ _ El)) as (L3 & P). unfold region_numbering. rewrite El.
    destruct (number_region_ok (g r) (sum (map prodl (firstn r lays))) lay (sc r) L3 P (HL r lay El)) as (a & para & Q & (N1 & N2 & _) & _). rewrite Q. exists a. auto.
  Qed.
  Lemma HR r i n : r < length lays -> i < 6 -> rm r i = Some n -> ~ In n bnames -> n < length lays.
  Proof.
    intros Hr Hi En NB. destruct (map_side corner (length lays) bnames bsides HB HS m E r i Hr Hi) as (n' & En' & [(C & _)|(C & _)]); cbn beta in En; rewrite En' in En; cbn in En; injection En as <-; [contradiction|exact C].
  Qed.
  Lemma HSYM r i n : r < length lays -> i < 6 -> att rm bnames r i n -> att rm bnames n (facing i) r.
  Proof.
    intros Hr Hi (En & NB). destruct (map_side corner (length lays) bnames bsides HB HS m E r i Hr Hi) as (n' & En' & [(C & _)|(C & _ & _ & D & _)]); rewrite En' in En; cbn in En; injection En as <-; [contradiction|].
    split; [rewrite D; reflexivity|]. intros G. specialize (HB r G). lia.
  Qed.
  Lemma PAIRS : NoDup (flat_map psides pairs) /\ (forall p r i, In p pairs -> In (r, i) (psides p) -> exists b, rm r i = Some b /\ In b bnames) /\ (forall p, In p pairs -> fst (snd (fst p)) < 3).
  Proof.
    assert (ND := bsides_NoDup corner (length lays) bnames bsides HB HS m E).
    destruct (boundary_pairs_ok bsides bps pairs HP ND ltac:(intros x Hx; exact (proj2 (HS x Hx)))) as (A & B & C). split; [exact A|]. split; [|exact C].
    intros p r i Hp Hk. destruct (B p r i Hp Hk) as (b & Hb). exists b. destruct (map_boundary corner (length lays) bnames bsides HB HS m E b r i Hb) as (_ & G & _). rewrite G. split; [reflexivity|]. exact (proj1 (HS _ Hb)).
  Qed.
  Lemma cores_rows (rs : list (list nat)) (ms : list emap) e row : Forall2 (fun els mm => core_map num lays rm bnames pairs els = Some mm) rs ms -> In (e, row) (concat ms) ->
    exists els mm, element_map num lays rm bnames pairs els = Some mm /\ In (e, row) mm /\ incl els (concat rs).
  Proof.
    intros F. induction F as [|els mm rs ms Q F IH]; intros H; [contradiction|]. cbn [concat] in *. apply in_app_or in H. destruct H as [H|H].
    - exists els, mm. rewrite <- core_map_full, Q. split; [reflexivity|]. split; [exact H|]. intros x Hx. apply in_or_app. now left.
    - destruct (IH H) as (els' & mm' & A & B & C). exists els', mm'. split; [exact A|]. split; [exact B|]. intros x Hx. apply in_or_app. right. auto.
  Qed.
  Lemma cores_keys (rs : list (list nat)) (ms : list emap) : Forall2 (fun els mm => core_map num lays rm bnames pairs els = Some mm) rs ms -> map fst (concat ms) = concat rs.
  Proof.
    intros F. induction F as [|els mm rs ms Q F IH]; [reflexivity|]. cbn [concat]. rewrite map_app, IH. f_equal. rewrite core_map_full in Q.
    destruct (element_map_rows num lays rm bnames pairs els mm Q) as (ps & _ & R). clear - R. induction R as [|x y l k (A & _) R IH]; [reflexivity|]. cbn [map]. rewrite IH, A. reflexivity.
  Qed.
  (** symmetric *)
  Lemma mesh_symmetric SIZE rs ms : partition SIZE (sum (map prodl lays)) rs ->
    Forall2 (fun els mm => core_map num lays rm bnames pairs els = Some mm) rs ms ->
    map fst (concat ms) = seq 0 (sum (map prodl lays)) /\
    forall e row, In (e, row) (concat ms) -> length row = 6 /\
      forall ax (up : bool) f, ax < 3 -> nth_error row (2 * ax + (if up then 1 else 0)) = Some (El f) ->
        exists row', In (f, row') (concat ms) /\ nth_error row' (2 * ax + (if negb up then 1 else 0)) = Some (El e).
  Proof.
    intros (_ & PA) F. assert (K := cores_keys rs ms F). rewrite PA in K. split; [exact K|]. intros e row Hr.
    destruct PAIRS as (P1 & P2 & P3). destruct (cores_rows rs ms e row F Hr) as (els & mm & EM & Hin & _).
    destruct (element_map_rows num lays rm bnames pairs els mm EM) as (ps & EP & R).
    assert (L6 : length row = 6 /\ exists row0, fetch num lays rm bnames e = Some row0 /\ row = fold_left (prow e) ps row0).
    { assert (A : exists row0, fetch num lays rm bnames e = Some row0 /\ row = fold_left (prow e) ps row0).
      { clear - R Hin. induction R as [|e0 er els m9 (E1 & E2) R IH]; [contradiction|]. destruct Hin as [->|Hin]; [cbn in *; subst; exact E2|auto]. }
      split; [|exact A]. destruct A as (row0 & F1 & ->). rewrite prow_length. destruct (fetch_row num lays HN rm bnames e row0 F1) as (_ & _ & _ & L & _). exact L. }
    destruct L6 as (L6 & row0 & F1 & ER). split; [exact L6|]. intros ax up f Ha N.
    (* f is an element of the mesh *)
    assert (Hf : f < sum (map prodl lays)).
    { destruct (fetch_row num lays HN rm bnames e row0 F1) as (r & idx & Le & L60 & RW). destruct (all_pairs_ok num lays HN H3 pairs P1 P3 ps EP) as (ND & AP).
      destruct (in_keys_dec e (side_index (ax, up)) (flat_map keys ps)) as [KK|KK].
      - apply in_flat_map in KK. destruct KK as ([[[e1 t1] t2] e2] & Hp & KK). destruct (AP _ Hp) as (q1 & s1 & q2 & s2 & x1 & x2 & i1 & i2 & _ & Hs1 & S2 & Ep & L1 & L2 & _).
        destruct (prow_key e1 t1 t2 e2 ps row0 ND Hp) as (Q1 & Q2). assert (HX : forall x r i, located num lays x r i -> x < sum (map prodl lays)) by (intros x r0 i Hx; exact (proj1 (located_lt num lays HN x r0 i Hx))).
        assert (LL : e1 < sum (map prodl lays) /\ e2 < sum (map prodl lays)) by (destruct Ep as [[= -> -> -> ->]|[= -> -> -> ->]]; eauto). rewrite ER in N.
        cbn [keys] in KK. destruct KK as [[= <- KE]|[[= <- KE]|[]]].
        + change (2 * ax + (if up then 1 else 0)) with (side_index (ax, up)) in N. rewrite <- KE, Q1 in N by (rewrite KE, L60; apply side_index_lt; exact Ha). injection N as <-. tauto.
        + change (2 * ax + (if up then 1 else 0)) with (side_index (ax, up)) in N. rewrite <- KE, Q2 in N by (rewrite KE, L60; apply side_index_lt; exact Ha). injection N as <-. tauto.
      - change (2 * ax + (if up then 1 else 0)) with (side_index (ax, up)) in N. rewrite ER, prow_other in N by exact KK. destruct (RW (ax, up) Ha) as (v & V1 & V2). rewrite N in V1. injection V1 as <-.
        assert (Q := fetch_side_ok num lays HN H3 rm bnames HR e r idx (ax, up) _ Le Ha V2). cbn in Q. destruct Q as (r' & idx' & Lf & _). exact (proj1 (located_lt num lays HN f r' idx' Lf)). }
    assert (IK : In f (map fst (concat ms))) by (rewrite K; apply in_seq; lia). apply in_map_iff in IK. destruct IK as ([f' row'] & Ef & Hf'). cbn [fst] in Ef. subst f'.
    exists row'. split; [exact Hf'|]. destruct (cores_rows rs ms f row' F Hf') as (els' & mm' & EM' & Hin' & _).
    exact (map_symmetric num lays HN H3 rm bnames HR HSYM pairs P1 P2 P3 els els' mm mm' e f row row' (ax, up) EM EM' Hin Hin' Ha N).
  Qed.
  (** where the neighbours are *)
  Lemma mesh_where SIZE rs ms : partition SIZE (sum (map prodl lays)) rs ->
    Forall2 (fun els mm => core_map num lays rm bnames pairs els = Some mm) rs ms ->
    (forall r1 s1 r2 s2, In ((r1, s1), (r2, s2)) pairs -> forall a, a <> fst s1 -> nth a (nth r1 lays []) 0 = nth a (nth r2 lays []) 0) ->
    forall e row ax (up : bool), In (e, row) (concat ms) -> ax < 3 -> exists r idx, located num lays e r idx /\
      exists v, nth_error row (2 * ax + (if up then 1 else 0)) = Some v /\
      match v with
      | El f => exists r' idx', located num lays f r' idx' /\ next_to lays (att_periodic rm bnames pairs) r idx ax up r' idx'
      | Bd b => extreme up (nth ax (nth r lays []) 0) (nth ax idx 0) /\ rm r (2 * ax + (if up then 1 else 0)) = Some b /\ In b bnames /\
             forall p, In p pairs -> ~ In (r, 2 * ax + (if up then 1 else 0)) (psides p)
      end.
  Proof.
    intros _ F EQ e row ax up Hr Ha. destruct PAIRS as (P1 & P2 & P3). destruct (cores_rows rs ms e row F Hr) as (els & mm & EM & Hin & _).
    exact (map_where num lays HN H3 rm bnames HR pairs P1 P2 P3 els mm e row (ax, up) EM EQ Hin Ha).
  Qed.
  (** attached regions have matching layouts *)
  Lemma mesh_layouts SIZE rs ms : partition SIZE (sum (map prodl lays)) rs ->
    Forall2 (fun els mm => core_map num lays rm bnames pairs els = Some mm) rs ms ->
    forall r i n, r < length lays -> i < 6 -> rm r i = Some n -> ~ In n bnames -> forall a, a <> i / 2 -> nth a (nth r lays []) 0 = nth a (nth n lays []) 0.
  Proof.
    intros (_ & PA) F r i n Hr Hi En NB. apply (layouts_agree num lays HN H3 rm bnames HR HSYM r i n Hr Hi (conj En NB)).
    intros e He. assert (K := cores_keys rs ms F). rewrite PA in K. assert (IK : In e (map fst (concat ms))) by (rewrite K; apply in_seq; lia).
    apply in_map_iff in IK. destruct IK as ([e' row] & Ee & Hin). cbn [fst] in Ee. subst e'. destruct (cores_rows rs ms e row F Hin) as (els & mm & EM & Hin' & _).
    destruct (element_map_rows num lays rm bnames pairs els mm EM) as (ps & _ & R). clear - R Hin'.
    induction R as [|e0 er els m9 (E1 & row0 & E2 & _) R IH]; [contradiction|]. destruct Hin' as [->|Hin']; [cbn in *; subst; congruence|auto].
  Qed.
End Mesh.

(** * slave_of_element *)
Lemma owns_spec d c i : c < length d -> owns d c i = true <-> exists l, nth_error (element_ranges 0 d) c = Some l /\ In i l.
Proof.
  intros H. unfold owns. rewrite andb_true_iff, Nat.leb_le, Nat.ltb_lt. rewrite (sum_firstn_S d c H).
  destruct (nth_error (element_ranges 0 d) c) as [l|] eqn:E.
  - assert (Q := ranges_nth 0 d c l E). subst l. split.
    + intros (A & B). eexists. split; [reflexivity|]. apply in_seq. unfold at_core. lia.
    + intros (l & [= <-] & G). apply in_seq in G. unfold at_core in G. lia.
  - exfalso. apply nth_error_None in E. rewrite ranges_length in E. lia.
Qed.
Lemma owns_unique d c c' i : owns d c i = true -> owns d c' i = true -> c = c'.
Proof.
  unfold owns. rewrite !andb_true_iff, !Nat.leb_le, !Nat.ltb_lt. intros (A & B) (C & D).
  destruct (Nat.lt_trichotomy c c') as [L|[L|L]]; [|exact L|]; exfalso.
  - assert (Q := PreludeProofs.sum_firstn_le d (S c) c' ltac:(lia)). lia.
  - assert (Q := PreludeProofs.sum_firstn_le d (S c') c ltac:(lia)). lia.
Qed.
Lemma owns_between d i m0 m2 : sum (firstn m0 d) <= i < sum (firstn m2 d) -> exists c, m0 <= c < m2 /\ owns d c i = true.
Proof.
  intros (A & B). induction m2 as [|m2 IH]; [cbn in B; lia|]. destruct (Nat.le_gt_cases (sum (firstn m2 d)) i) as [L|L].
  - exists m2. assert (m0 <= m2). { destruct (Nat.le_gt_cases m0 m2); [assumption|]. assert (Q := PreludeProofs.sum_firstn_le d (S m2) m0 ltac:(lia)). lia. }
    split; [lia|]. unfold owns. rewrite andb_true_iff, Nat.leb_le, Nat.ltb_lt. lia.
  - destruct (IH L) as (c & C1 & C2). exists c. split; [lia|exact C2].
Qed.
Lemma find_owner d i m0 n : (exists c, m0 <= c < m0 + n /\ owns d c i = true) -> exists c, find (fun c => owns d c i) (seq m0 n) = Some c /\ owns d c i = true.
Proof.
  intros (c & C1 & C2). destruct (find (fun c => owns d c i) (seq m0 n)) as [c'|] eqn:E.
  - exists c'. split; [reflexivity|]. apply find_some in E. tauto.
  - exfalso. assert (Q := find_none _ _ E c ltac:(apply in_seq; lia)). cbn beta in Q. congruence.
Qed.
Lemma halve_ok d i : Forall (fun n => 1 <= n) d -> forall fuel m0 m1 m2, m0 <= m1 -> m1 < m2 -> m2 <= length d -> m2 - m0 <= fuel -> sum (firstn m0 d) <= i < sum (firstn m2 d) ->
  exists n0 n1 n2, halve fuel d i m0 m1 m2 = Some (n0, n1, n2) /\ n0 <= n1 /\ n1 < n2 /\ n2 <= length d /\ sum (firstn n0 d) <= i < sum (firstn n2 d).
Proof.
  intros Hp. induction fuel as [|fuel IH]; intros m0 m1 m2 H1 H2 H3 H4 H5; [lia|]. cbn [halve].
  destruct (negb (owns d m1 i) && (2 <? m1 - m0) && (2 <? m2 - m1)) eqn:E; [|exists m0, m1, m2; auto 10].
  apply andb_prop in E. destruct E as (E & E3). apply andb_prop in E. destruct E as (E1 & E2). apply Nat.ltb_lt in E2, E3. apply negb_true_iff in E1.
  assert (P : 1 <= nth m1 d 0) by (apply (proj1 (Forall_forall _ _) Hp); apply nth_In; lia). rewrite (proj2 (Nat.eqb_neq _ _)) by lia.
  unfold above, below. destruct (Nat.leb_spec (sum (firstn (S m1) d)) i) as [L|L].
  - assert (Q := sum_firstn_S d m1 ltac:(lia)). assert (D : m1 <= (m1 + m2) / 2 < m2) by (split; [apply Nat.div_le_lower_bound; lia|apply Nat.div_lt_upper_bound; lia]). apply IH; lia.
  - assert (F : i < sum (firstn m1 d)). { unfold owns in E1. apply andb_false_iff in E1. rewrite Nat.leb_gt, Nat.ltb_ge in E1. lia. }
    rewrite (proj2 (Nat.ltb_lt _ _) F). assert (D : m0 <= (m0 + m1) / 2 < m1) by (split; [apply Nat.div_le_lower_bound; lia|apply Nat.div_lt_upper_bound; lia]). apply IH; lia.
Qed.
Lemma slave_some d SIZE i c : slave_of d SIZE i = Some c -> owns d c i = true.
Proof.
  unfold slave_of. destruct ((SIZE <=? 6) || _); [intros H; apply find_some in H; tauto|]. destruct (halve _ _ _ _ _ _) as [[[m0 m1] m2]|]; [|discriminate].
  destruct (owns d m1 i) eqn:E; [intros [= <-]; exact E|]. destruct (nth m1 d 0 =? 0); [discriminate|].
  destruct (above d m1 i); [intros H; apply find_some in H; tauto|]. destruct (below d m1 i); [intros H; apply find_some in H; tauto|discriminate].
Qed.
Lemma slave_ok d SIZE i c : length d = SIZE -> slave_of d SIZE i = Some c <-> exists l, nth_error (element_ranges 0 d) c = Some l /\ In i l.
Proof.
  intros L. split.
  - intros H. assert (O := slave_some d SIZE i c H). destruct (Nat.lt_ge_cases c (length d)) as [Q|Q]; [apply owns_spec; assumption|].
    exfalso. unfold owns in O. rewrite andb_true_iff, Nat.leb_le, Nat.ltb_lt in O. rewrite !firstn_all2 in O by lia. lia.
  - intros (l & E & Hi). assert (Hc : c < length d) by (rewrite <- (ranges_length 0 d); apply nth_error_Some; congruence).
    assert (O : owns d c i = true) by (apply owns_spec; [exact Hc|eauto]).
    assert (BD : 0 <= i < sum (firstn SIZE d)). { unfold owns in O. rewrite andb_true_iff, Nat.leb_le, Nat.ltb_lt in O. assert (Q := PreludeProofs.sum_firstn_le d (S c) SIZE ltac:(lia)). lia. }
    assert (G : exists c', slave_of d SIZE i = Some c').
    { unfold slave_of. destruct ((SIZE <=? 6) || negb (forallb (fun n => 1 <=? n) d)) eqn:B.
      - destruct (find_owner d i 0 SIZE) as (c' & F & _); [exists c; split; [lia|exact O]|]. eauto.
      - apply orb_false_iff in B. destruct B as (B1 & B2). apply Nat.leb_gt in B1. apply negb_false_iff in B2.
        assert (P : Forall (fun n => 1 <= n) d) by (apply Forall_forall; intros x Hx; apply Nat.leb_le; exact (proj1 (forallb_forall _ _) B2 x Hx)).
        destruct (halve_ok d i P SIZE 0 (SIZE / 2) SIZE) as (m0 & m1 & m2 & H & M1 & M2 & M3 & M4); try lia; [apply Nat.div_lt; lia|exact BD|]. rewrite H.
        destruct (owns d m1 i) eqn:O1; [eauto|]. assert (P1 : 1 <= nth m1 d 0) by (apply (proj1 (Forall_forall _ _) P); apply nth_In; lia). rewrite (proj2 (Nat.eqb_neq _ _)) by lia.
        unfold above, below. destruct (Nat.leb_spec (sum (firstn (S m1) d)) i) as [La|La].
        + destruct (find_owner d i m1 (m2 - m1)) as (c' & F & _); [|eauto]. assert (Q := sum_firstn_S d m1 ltac:(lia)). destruct (owns_between d i m1 m2 ltac:(lia)) as (c' & C1 & C2). exists c'. split; [lia|exact C2].
        + assert (F : i < sum (firstn m1 d)). { unfold owns in O1. apply andb_false_iff in O1. rewrite Nat.leb_gt, Nat.ltb_ge in O1. lia. }
          rewrite (proj2 (Nat.ltb_lt _ _) F). destruct (find_owner d i m0 (m1 - m0)) as (c' & F' & _); [|eauto]. destruct (owns_between d i m0 m1 ltac:(lia)) as (c' & C1 & C2). exists c'. split; [lia|exact C2]. }
    destruct G as (c' & G). rewrite G. f_equal. exact (owns_unique d c' c i (slave_some _ _ _ _ G) O).
Qed.
