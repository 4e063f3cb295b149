(** Proofs about CochainModel: cochains grouped by region and local indices. *)
From Coq Require Import Ascii String DecimalString DecimalNat List Arith ZArith QArith Qcanon Bool Lia.
From Verif Require Import Prelude PreludeProofs SpaceModel AssembleModel MeshModel MeshSpec MeshProofs MeshProofs3 MeshMapModel MeshMapSpec MeshMapProofs MeshMapProofs2 MeshMapProofs3 TraceModel TraceProofs SpacingModel GatherModel GatherProofs CochainModel CochainSpec CochainProofs3.
Import ListNotations.
Local Open Scope nat_scope.
Local Open Scope list_scope.

Notation chars := list_ascii_of_string.
Lemma chars_app a b : chars (String.append a b) = chars a ++ chars b.
Proof. induction a as [|c a IH]; [reflexivity|]. cbn. rewrite IH. reflexivity. Qed.
Lemma chars_inj a b : chars a = chars b -> a = b.
Proof. intros H. rewrite <- (string_of_list_ascii_of_string a), H. apply string_of_list_ascii_of_string. Qed.
(** before and after the first, or the last, separator *)
Lemma first_sep {A} (c : A) l1 : forall l2 t1 t2, ~ In c l1 -> ~ In c l2 -> l1 ++ c :: t1 = l2 ++ c :: t2 -> l1 = l2 /\ t1 = t2.
Proof.
  induction l1 as [|x l1 IH]; intros [|y l2] t1 t2 N1 N2 H; cbn in *; injection H; intros; subst; auto; try tauto.
  destruct (IH l2 t1 t2) as (-> & ->); auto.
Qed.
Lemma last_sep {A} (c : A) l1 : forall l2 t1 t2, ~ In c t1 -> ~ In c t2 -> l1 ++ c :: t1 = l2 ++ c :: t2 -> l1 = l2 /\ t1 = t2.
Proof.
  induction l1 as [|x l1 IH]; intros [|y l2] t1 t2 N1 N2 H; cbn in H; injection H; intros; subst; auto.
  - exfalso. apply N1. apply in_or_app. right. now left.
  - exfalso. apply N2. apply in_or_app. right. now left.
  - destruct (IH l2 t1 t2) as (-> & ->); auto.
Qed.
Definition digit (c : ascii) : Prop := In c (chars "0123456789"%string).
Lemma digits d c : In c (chars (NilEmpty.string_of_uint d)) -> digit c.
Proof. unfold digit. induction d; cbn [NilEmpty.string_of_uint list_ascii_of_string In]; [intros []| | | | | | | | | |]; (intros [<-|H]; [cbn; tauto|exact (IHd H)]). Qed.
Notation dec n := (NilEmpty.string_of_uint (Nat.to_uint n)).
Lemma dec_inj a b : dec a = dec b -> a = b.
Proof.
  intros H. assert (E := f_equal NilEmpty.uint_of_string H). rewrite !NilEmpty.usu in E. injection E as E. apply Unsigned.to_uint_inj. exact E.
Qed.
Lemma dec_nonempty a : chars (dec a) <> [].
Proof.
  intros H. assert (E : Nat.to_uint a = Decimal.Nil) by (destruct (Nat.to_uint a); [reflexivity|discriminate..]). assert (Z := Unsigned.of_to a). rewrite E in Z. cbn in Z. subst a. discriminate E.
Qed.
Definition commas (l : list nat) : list ascii := chars (String.concat ", "%string (map (fun n => dec n) l)).
Lemma commas_cons a b l : commas (a :: b :: l) = chars (dec a) ++ ","%char :: " "%char :: commas (b :: l).
Proof. unfold commas. cbn [map String.concat]. rewrite !chars_app. reflexivity. Qed.
Lemma no_comma a : ~ In ","%char (chars (dec a)).
Proof. intros H. apply digits in H. unfold digit in H. cbn in H. repeat (destruct H as [H|H]; [discriminate|]). exact H. Qed.
Lemma commas_inj l : forall m, commas l = commas m -> l = m.
Proof.
  induction l as [|a [|b l] IH]; intros [|a' [|b' m]] H; try reflexivity.
  - exfalso. symmetry in H. exact (dec_nonempty a' H).
  - exfalso. rewrite commas_cons in H. symmetry in H. apply app_eq_nil in H as (_ & H). discriminate.
  - exfalso. exact (dec_nonempty a H).
  - f_equal. apply dec_inj. apply chars_inj. exact H.
  - exfalso. rewrite commas_cons in H. apply (no_comma a). change (In ","%char (commas [a])). rewrite H. apply in_or_app. right. now left.
  - exfalso. rewrite commas_cons in H. apply app_eq_nil in H as (_ & H). discriminate.
  - exfalso. rewrite commas_cons in H. apply (no_comma a'). change (In ","%char (commas [a'])). rewrite <- H. apply in_or_app. right. now left.
  - rewrite !commas_cons in H. apply first_sep in H as (H1 & H2); [|apply no_comma|apply no_comma]. apply chars_inj, dec_inj in H1. injection H2 as H2. rewrite H1, (IH _ H2). reflexivity.
Qed.
Lemma show_chars l : chars (show l) = "("%char :: commas l ++ [")"%char].
Proof. unfold show. rewrite !chars_app. reflexivity. Qed.
Lemma show_inj l m : show l = show m -> l = m.
Proof. intros H. apply (f_equal chars) in H. rewrite !show_chars in H. injection H as H. apply app_inj_tail in H as (H & _). apply commas_inj. exact H. Qed.
Lemma commas_chars l c : In c (commas l) -> digit c \/ c = ","%char \/ c = " "%char.
Proof.
  induction l as [|a [|b l] IH]; [intros []|intros H; left; exact (digits _ _ H)|]. rewrite commas_cons. intros H. apply in_app_or in H as [H|[<-|[<-|H]]]; [left; exact (digits _ _ H)|auto..].
Qed.
Lemma show_eq l : ~ In "="%char (chars (show l)).
Proof.
  rewrite show_chars. intros [H|H]; [discriminate|]. apply in_app_or in H as [H|[H|[]]]; [|discriminate]. apply commas_chars in H as [H|[H|H]]; [|discriminate..]. unfold digit in H. cbn in H. repeat (destruct H as [H|H]; [discriminate|]). exact H.
Qed.
Lemma key_inj rname x y : (forall a b, rname a = rname b -> a = b) -> rw_key rname x = rw_key rname y -> x = y.
Proof.
  intros RI H. destruct x as [a l], y as [b m]. apply (f_equal chars) in H. unfold rw_key in H. cbn [fst snd] in H. rewrite !chars_app in H. change (chars "=|="%string) with ["="%char; "|"%char; "="%char] in H.
  assert (H' : (chars (rname a) ++ ["="%char; "|"%char]) ++ "="%char :: chars (show l) = (chars (rname b) ++ ["="%char; "|"%char]) ++ "="%char :: chars (show m)) by (rewrite <- !app_assoc; exact H).
  apply last_sep in H' as (H1 & H2); [|apply show_eq|apply show_eq]. apply app_inv_tail in H1. apply chars_inj, RI in H1. apply chars_inj, show_inj in H2. congruence.
Qed.

(** * dictionaries of all cores *)
Lemma upd_all_app {K V} (eqb : K -> K -> bool) (ls : list (list (K * V))) d : fold_left (upd_all eqb) ls d = fold_left (fun d kv => dset eqb d (fst kv) (snd kv)) (concat ls) d.
Proof. revert d. induction ls as [|l ls IH]; intros d; [reflexivity|]. cbn [fold_left concat]. rewrite fold_left_app. apply IH. Qed.
Lemma merged {V} (l : list (nat * V)) : NoDup (map fst l) -> forall d k, lookup Nat.eqb k (fold_left (fun d kv => dset Nat.eqb d (fst kv) (snd kv)) l d) = match lookup Nat.eqb k l with Some v => Some v | None => lookup Nat.eqb k d end.
Proof.
  induction l as [|[a v] l IH]; intros ND d k; [reflexivity|]. inversion ND as [|? ? N1 N2]; subst. cbn [fold_left fst snd]. rewrite (IH N2). assert (D := dget_dset Nat.eqb Nat.eqb_eq d a v k). unfold dget in D. rewrite D. cbn [lookup].
  rewrite (Nat.eqb_sym k a). destruct (Nat.eqb_spec a k) as [->|]; [|reflexivity]. destruct (lookup Nat.eqb k l) as [w|] eqn:E; [|reflexivity]. exfalso. apply N1. apply lookup_In in E. exact (in_map fst _ _ E).
Qed.
Section Grouping.
  Variables (rname : nat -> string) (find : nat -> option (nat * list nat)) (N : nat) (locs : list lcoch).
  Hypothesis RI : forall a b, rname a = rname b -> a = b.
  Hypothesis HN : NoDup (map fst (concat locs)).
  Hypothesis HE : forall e, In e (map fst (concat locs)) <-> e < N.
  Hypothesis HF : forall e, e < N -> exists x, find e = Some x.
  Hypothesis HI : forall e e' x, e < N -> e' < N -> find e = Some x -> find e' = Some x -> e = e'.
  Lemma group_ok : exists rw, group rname find N locs = Some rw /\ (forall e c x, In (e, c) (concat locs) -> find e = Some x -> lookup String.eqb (rw_key rname x) rw = Some c).
  Proof.
    unfold group. set (key := fun e => match find e with Some x => rw_key rname x | None => ""%string end).
    set (rids := map (map (fun ev : nat * list Qc => (fst ev, key (fst ev)))) locs).
    assert (E : all_some (map (fun loc : lcoch => all_some (map (fun ev => option_map (fun x => (fst ev, rw_key rname x)) (find (fst ev))) loc)) locs) = Some rids).
    { apply all_some_map. intros loc Hl. apply all_some_map. intros [e v] He. cbn [fst]. destruct (HF e) as (x & Ex). { apply HE. apply in_map_iff. exists (e, v). split; [reflexivity|]. apply in_concat. exists loc. auto. } unfold key. rewrite Ex. reflexivity. }
    rewrite E. rewrite !upd_all_app. set (LOCAL := fold_left _ (concat locs) []). set (RID := fold_left _ (concat rids) []).
    assert (CR : concat rids = map (fun ev : nat * list Qc => (fst ev, key (fst ev))) (concat locs)) by (unfold rids; rewrite concat_map; reflexivity).
    assert (KR : map fst (concat rids) = map fst (concat locs)) by (rewrite CR, map_map; reflexivity).
    assert (L1 : forall e c, In (e, c) (concat locs) -> lookup Nat.eqb e LOCAL = Some c).
    { intros e c H. unfold LOCAL. rewrite merged by exact HN. rewrite (proj2 (lookup_In_iff _ e c HN) H). reflexivity. }
    assert (L2 : forall e, e < N -> lookup Nat.eqb e RID = Some (key e)).
    { intros e H. unfold RID. rewrite merged by (rewrite KR; exact HN). apply HE in H. apply in_map_iff in H as ([e' c] & <- & H). cbn [fst].
      rewrite (proj2 (lookup_In_iff _ e' (key e') ltac:(rewrite KR; exact HN))); [reflexivity|]. rewrite CR. apply in_map_iff. exists (e', c). auto. }
    assert (L3 : forall e, e < N -> exists c, In (e, c) (concat locs) /\ lookup Nat.eqb e LOCAL = Some c).
    { intros e H. apply HE in H. apply in_map_iff in H as ([e' c] & <- & H). exists c. split; [exact H|]. exact (L1 _ _ H). }
    clearbody LOCAL RID.
    assert (G : forall n, n <= N -> exists rw, fold_left (fun st i => match st, lookup Nat.eqb i LOCAL, lookup Nat.eqb i RID with
                               | Some d, Some c, Some k => Some (dset String.eqb d k c) | _, _, _ => None end) (seq 0 n) (Some []) = Some rw /\
              (forall e c x, e < n -> In (e, c) (concat locs) -> find e = Some x -> lookup String.eqb (rw_key rname x) rw = Some c)).
    { induction n as [|n IH]; intros Hn; [exists []; split; [reflexivity|]; intros; lia|]. destruct (IH ltac:(lia)) as (rw & Er & R). rewrite seq_S, fold_left_app, Er. cbn [fold_left Nat.add].
      destruct (L3 n ltac:(lia)) as (c & Hc & Ec). rewrite Ec, (L2 n) by lia. eexists. split; [reflexivity|]. intros e c' x He Hin Ex. assert (D := dget_dset String.eqb String.eqb_eq rw (key n) c (rw_key rname x)). unfold dget in D. rewrite D. clear D.
      destruct (HF n ltac:(lia)) as (xn & Exn). destruct (String.eqb_spec (key n) (rw_key rname x)) as [K1|K1].
      - unfold key in K1. rewrite Exn in K1. apply (key_inj rname _ _ RI) in K1. subst xn. assert (e = n) by (apply (HI e n x); (lia || assumption)). subst e. rewrite <- (L1 _ _ Hin). symmetry. exact Ec.
      - assert (e <> n). { intros ->. apply K1. unfold key. rewrite Ex. reflexivity. } apply (R e); (lia || assumption). }
    destruct (G N ltac:(lia)) as (rw & Er & R). exists rw. split; [exact Er|]. intros e c x H Ex. apply (R e); try assumption. apply HE. exact (in_map fst _ _ H).
  Qed.
  (** given back to elements of a mesh with another numbering, on other cores *)
  Variable find' : nat -> option (nat * list nat).
  Theorem regrouped els : (forall i, In i els -> exists e x, e < N /\ find e = Some x /\ find' i = Some x) ->
    exists rw loc, group rname find N locs = Some rw /\ ungroup rname find' els rw = Some loc /\ map fst loc = els /\
      forall i c, In (i, c) loc -> exists e x, find e = Some x /\ find' i = Some x /\ In (e, c) (concat locs).
  Proof.
    intros H. destruct group_ok as (rw & E & R). exists rw. set (val := fun i => match find' i with Some x => match lookup String.eqb (rw_key rname x) rw with Some c => c | None => [] end | None => [] end).
    exists (map (fun i => (i, val i)) els). split; [exact E|].
    assert (V : forall i, In i els -> exists e x, find e = Some x /\ find' i = Some x /\ In (e, val i) (concat locs) /\ lookup String.eqb (rw_key rname x) rw = Some (val i)).
    { intros i Hi. destruct (H i Hi) as (e & x & He & Ex & Ex'). exists e, x. apply HE in He. apply in_map_iff in He as ([e' c] & <- & Hc). cbn [fst] in Ex. assert (X := R e' c x Hc Ex). unfold val. rewrite Ex', X. auto. }
    split; [|split].
    - unfold ungroup. apply all_some_map. intros i Hi. destruct (V i Hi) as (e & x & _ & Ex' & _ & L). rewrite Ex', L. reflexivity.
    - rewrite map_map. apply map_id.
    - intros i c Hc. apply in_map_iff in Hc as (i' & [= <- <-] & Hi). destruct (V i' Hi) as (e & x & A & B & C & _). exists e, x. auto.
  Qed.
End Grouping.

Theorem mesh_regrouped : forall rname lays g sc g' sc' SIZE SIZE' rs rs' locs, (forall a b : nat, rname a = rname b -> a = b) ->
  Forall (fun lay => length lay = 3 /\ Forall (fun n => 1 <= n) lay) lays ->
  (forall r lay, nth_error lays r = Some lay -> lens_ok (prodl lay) (sc r) /\ lens_ok (prodl lay) (sc' r)) ->
  let num r := option_map fst (region_numbering g lays sc r) in let num' r := option_map fst (region_numbering g' lays sc' r) in
  let N := sum (map prodl lays) in partition SIZE N rs -> partition SIZE' N rs' -> map (map fst) locs = rs ->
  exists rw locs', group rname (find_element num lays) N locs = Some rw /\
    Forall2 (fun els loc => ungroup rname (find_element num' lays) els rw = Some loc) rs' locs' /\ map (map fst) locs' = rs' /\
    forall e e' r idx c, located num lays e r idx -> located num' lays e' r idx -> In (e, c) (concat locs) -> In (e', c) (concat locs').
Proof.
  intros rname lays g sc g' sc' SIZE SIZE' rs rs' locs RI H3 HL num num' N P P' EL.
  assert (H3' : forall r lay, nth_error lays r = Some lay -> length lay = 3 /\ Forall (fun n => 1 <= n) lay) by (intros r lay E; exact (proj1 (Forall_forall _ _) H3 lay (nth_error_In _ _ E))).
  assert (HN : forall r lay, nth_error lays r = Some lay -> exists a, num r = Some a /\ shp a = lay /\ bijective lay (sum (map prodl (firstn r lays))) (prodl lay) (at_ a)).
  { intros r lay E. destruct (region_numbering_ok g lays sc r lay E (proj1 (H3' r lay E)) (proj2 (H3' r lay E)) (proj1 (HL r lay E))) as (a & para & Ea & Sa & B & _). exists a. unfold num. rewrite Ea. auto. }
  assert (HN' : forall r lay, nth_error lays r = Some lay -> exists a, num' r = Some a /\ shp a = lay /\ bijective lay (sum (map prodl (firstn r lays))) (prodl lay) (at_ a)).
  { intros r lay E. destruct (region_numbering_ok g' lays sc' r lay E (proj1 (H3' r lay E)) (proj2 (H3' r lay E)) (proj2 (HL r lay E))) as (a & para & Ea & Sa & B & _). exists a. unfold num'. rewrite Ea. auto. }
  clearbody num num'. assert (CE : map fst (concat locs) = seq 0 N) by (rewrite concat_map; rewrite EL; exact (proj2 P)).
  assert (A1 : NoDup (map fst (concat locs))) by (rewrite CE; apply seq_NoDup).
  assert (A2 : forall e, In e (map fst (concat locs)) <-> e < N) by (intros e; rewrite CE, in_seq; lia).
  assert (A3 : forall e, e < N -> exists x, find_element num lays e = Some x).
  { intros e He. destruct (located_exists num lays HN e He) as (r & idx & L). exists (r, idx). apply (proj2 (find_located num lays HN e r idx)). exact L. }
  assert (A4 : forall e e' x, e < N -> e' < N -> find_element num lays e = Some x -> find_element num lays e' = Some x -> e = e').
  { intros e e' [r idx] _ _ E E'. apply (find_located num lays HN) in E. apply (find_located num lays HN) in E'. destruct E as (l1 & a1 & Q1 & Q2 & _ & <-). destruct E' as (l2 & a2 & Q3 & Q4 & _ & <-). congruence. }
  assert (A5 : forall i, i < N -> exists e x, e < N /\ find_element num lays e = Some x /\ find_element num' lays i = Some x).
  { intros i Hi. destruct (located_exists num' lays HN' i Hi) as (r & idx & L). assert (L' := L). destruct L as (lay & a & Q1 & Q2 & Q3 & Q4). destruct (HN r lay Q1) as (b & Eb & Sb & _). exists (at_ b idx), (r, idx).
    assert (L : located num lays (at_ b idx) r idx) by (exists lay, b; auto). split; [exact (proj1 (located_lt num lays HN _ _ _ L))|]. split; [apply (proj2 (find_located num lays HN _ r idx)); exact L|apply (proj2 (find_located num' lays HN' i r idx)); exact L']. }
  assert (SUB : forall els, In els rs' -> forall i, In i els -> i < N).
  { intros els He i Hi. assert (X : In i (concat rs')) by (apply in_concat; exists els; auto). rewrite (proj2 P') in X. apply in_seq in X. lia. }
  destruct (group_ok rname (find_element num lays) N locs RI A1 A2 A3 A4) as (rw & Erw & _). exists rw.
  assert (G : forall l, (forall els, In els l -> In els rs') -> exists locs', Forall2 (fun els loc => ungroup rname (find_element num' lays) els rw = Some loc) l locs' /\ map (map fst) locs' = l /\
     forall i c, In (i, c) (concat locs') -> exists e x, find_element num lays e = Some x /\ find_element num' lays i = Some x /\ In (e, c) (concat locs)).
  { induction l as [|els l IH]; intros Hl; [exists []; split; [constructor|]; split; [reflexivity|]; intros i c []|].
    destruct (IH ltac:(intros; apply Hl; now right)) as (ls & F & M & R). destruct (regrouped rname (find_element num lays) N locs RI A1 A2 A3 A4 (find_element num' lays) els) as (rw' & loc & E1 & E2 & E3 & E4).
    { intros i Hi. apply A5. exact (SUB els (Hl els (or_introl eq_refl)) i Hi). }
    assert (rw' = rw) by congruence. subst rw'. exists (loc :: ls). split; [constructor; assumption|]. split; [cbn; congruence|]. intros i c Hi. cbn [concat] in Hi. apply in_app_or in Hi as [Hi|Hi]; [exact (E4 i c Hi)|exact (R i c Hi)]. }
  destruct (G rs' ltac:(auto)) as (locs' & F & M & R). exists locs'. split; [exact Erw|]. split; [exact F|]. split; [exact M|].
  intros e e' r idx c Le Le' Hc. assert (X : In e' (map fst (concat locs'))). { rewrite concat_map, M, (proj2 P'). apply in_seq. assert (B := proj1 (located_lt num' lays HN' _ _ _ Le')). lia. }
  apply in_map_iff in X as ([i c'] & <- & Hi). cbn [fst] in *. destruct (R i c' Hi) as (e2 & x & F1 & F2 & F3). apply (find_located num' lays HN') in Le'. rewrite Le' in F2. injection F2 as <-. apply (find_located num lays HN) in Le.
  assert (B : forall q cc, In (q, cc) (concat locs) -> q < N) by (intros q cc Hq; apply A2; exact (in_map fst _ _ Hq)). assert (e2 = e) by (apply (A4 e2 e (r, idx)); eauto). subst e2.
  assert (c' = c); [|subst; exact Hi]. assert (U1 := proj2 (lookup_In_iff _ e c A1) Hc). assert (U2 := proj2 (lookup_In_iff _ e c' A1) F3). congruence.
Qed.
