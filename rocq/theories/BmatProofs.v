(** Proofs for C23: assembling a block matrix (concatenated vector) with chained gathering matrices is
    assembling the blocks at their offsets. *)
From Coq Require Import List Arith ZArith Bool Lia.
From Verif Require Import Prelude PreludeProofs RingSum AssembleModel AssembleProofs GatherModel GatherSpec GatherProofs
  EwcModel EwcProofs AsmModel AsmSpec AsmProofs RowsProofs.
Import ListNotations.

Lemma locate_shift ns : forall s i, locate ns s i = (s + fst (locate ns 0 i), snd (locate ns 0 i)).
Proof.
  induction ns as [|n ns IH]; intros s i; simpl; [f_equal; lia|]. destruct (i <? n); simpl; [f_equal; lia|].
  rewrite (IH (S s)), (IH 1). simpl. f_equal. lia.
Qed.
Lemma locate_head n ns s i : i < n -> locate (n :: ns) s i = (s, i).
Proof. intros H. simpl. destruct (Nat.ltb_spec i n); [reflexivity|lia]. Qed.
Lemma locate_tail n ns s i : locate (n :: ns) s (n + i) = locate ns (S s) i.
Proof. simpl. destruct (Nat.ltb_spec (n + i) n); [lia|]. f_equal. lia. Qed.

Section BmatP.
  Variable K : CRing.
  Add Ring Kring5 : (Rth K).
  Local Open Scope ring_s.

  Lemma bsum_locate (L : list (list nat)) (G : nat * nat -> nat -> K) : forall s,
    bsum (enumerate (concat L)) (fun p => G (locate (map (@length nat) L) s (fst p)) (snd p)) =
    bsum (combine (seq s (length L)) L) (fun kl => bsum (enumerate (snd kl)) (fun q => G (fst kl, fst q) (snd q))).
  Proof.
    induction L as [|l L IH]; intros s; [reflexivity|]. cbn [concat map length seq combine]. rewrite enum_app, bsum_app, bsum_cons, bsum_map. cbn [fst snd]. f_equal.
    - apply bsum_ext. intros [i x] I. apply enum_nth in I. cbn [fst snd]. rewrite locate_head; [reflexivity|]. apply nth_error_Some. congruence.
    - rewrite <- IH. apply bsum_ext. intros [i x] _. cbn [fst snd]. rewrite locate_tail. reflexivity.
  Qed.

  Section Local.
    (** local vectors of the rows and columns, block by block, with the sizes of the numberings *)
    Variables (rvs cvs : list (list nat)) (ns ms : list nat).
    Hypothesis LR : length ns = length rvs.
    Hypothesis LC : length ms = length cvs.
    Hypothesis RR : forall k v d, nth_error rvs k = Some v -> In d v -> (d < nth k ns 0)%nat.
    Hypothesis RC : forall k v d, nth_error cvs k = Some v -> In d v -> (d < nth k ms 0)%nat.
    Definition shifted (vs : list (list nat)) (sz : list nat) : list nat :=
      concat (map (fun jv => map (fun d => d + sum (firstn (fst jv) sz))%nat (snd jv)) (enumerate vs)).

    Lemma len_shift vs sz : map (@length nat) (map (fun jv => map (fun d => d + sum (firstn (fst jv) sz))%nat (snd jv)) (enumerate vs)) = map (@length nat) vs.
    Proof.
      rewrite map_map. unfold enumerate. generalize 0%nat. induction vs as [|v vs IH]; intros s; [reflexivity|]. simpl. rewrite map_length, IH. reflexivity.
    Qed.
    Lemma enum_map {A B} (f : A -> B) (l : list A) : enumerate (map f l) = map (fun p => (fst p, f (snd p))) (enumerate l).
    Proof. unfold enumerate. rewrite map_length. generalize 0%nat. induction l; intros s; simpl; [reflexivity|]. f_equal. apply IHl. Qed.

    (** summing over a chained vector at a chained number *)
    Lemma pick_block vs sz p a (G : nat * nat -> K) : length sz = length vs ->
      (forall k v d, nth_error vs k = Some v -> In d v -> (d < nth k sz 0)%nat) ->
      (p < length vs)%nat -> (a < nth p sz 0)%nat ->
      bsum (enumerate (shifted vs sz)) (fun q => if snd q =? sum (firstn p sz) + a then G (locate (map (@length nat) vs) 0 (fst q)) else 0) =
      bsum (enumerate (nth p vs [])) (fun q => if snd q =? a then G (p, fst q) else 0).
    Proof using.
      clear LR LC RR RC rvs cvs ns ms. intros L R Hp Ha. unfold shifted. rewrite <- (len_shift vs sz).
      rewrite (bsum_locate _ (fun kl x => if x =? sum (firstn p sz) + a then G kl else 0)).
      set (LL := map _ (enumerate vs)).
      change (combine (seq 0 (length LL)) LL) with (enumerate LL).
      unfold LL. rewrite enum_map, bsum_map. cbn [fst snd].
      assert (EE : forall X (l : list X) (f : nat * (nat * X) -> K), bsum (enumerate (enumerate l)) f = bsum (enumerate l) (fun kx => f (fst kx, kx))).
      { intros X l f. unfold enumerate at 1 2. rewrite combine_length, seq_length, Nat.min_id. unfold enumerate. generalize 0%nat.
        induction l as [|x l IHl]; intros s; [reflexivity|]. cbn [length seq combine]. rewrite !bsum_cons. f_equal. apply IHl. }
      rewrite EE. cbn [fst snd].
      rewrite (bsum_only _ (enumerate vs) (p, nth p vs [])).
      - cbn [fst snd]. rewrite enum_map, bsum_map. cbn [fst snd]. apply bsum_ext. intros [i x] _. cbn [fst snd].
        destruct (Nat.eqb_spec (x + sum (firstn p sz)) (sum (firstn p sz) + a)); destruct (Nat.eqb_spec x a); try reflexivity; lia.
      - eapply NoDup_map_inv with (f := fst). rewrite map_fst_enum. apply seq_NoDup.
      - apply enum_nth, nth_error_nth'. assumption.
      - intros [k v] I NE. cbn [fst snd]. rewrite enum_map, bsum_map. apply bsum_0. intros [i x] Ii. cbn [fst snd].
        apply enum_nth in I. apply enum_nth in Ii. assert (In x v) by (eapply nth_error_In; eassumption).
        destruct (Nat.eqb_spec (x + sum (firstn k sz)) (sum (firstn p sz) + a)) as [Q|]; [|reflexivity]. exfalso.
        assert (Hk : (k < length vs)%nat) by (apply nth_error_Some; congruence).
        destruct (offset_inj sz k x p a) as [-> ->]; try lia; [eapply R; eassumption|].
        apply NE. f_equal. symmetry. apply nth_error_nth. assumption.
    Qed.

    Variable blocks : list (list (option (lmat K))).
    Hypothesis BR : length blocks = length rvs.
    Hypothesis SB : forall k l row M, nth_error blocks k = Some row -> nth_error row l = Some (Some M) ->
      nrow K M = length (nth k rvs []) /\ ncol K M = length (nth l cvs []).

    Lemma all_some_rows rs : all_some (map (block_rows K) blocks) = Some rs -> rs = map (@length nat) rvs.
    Proof.
      clear RR RC LR LC.
      assert (G : forall bl vs rs0 s, length bl = length vs -> (forall k row, nth_error bl k = Some row -> nth_error blocks (s + k) = Some row) ->
        (forall k, nth k vs [] = nth (s + k) rvs []) -> all_some (map (block_rows K) bl) = Some rs0 -> rs0 = map (@length nat) vs).
      { induction bl as [|row bl IH]; intros [|v vs] rs0 s L HB HV E; simpl in *; try discriminate; [congruence|].
        destruct (block_rows K row) as [n|] eqn:En; [|discriminate]. destruct (all_some (map (block_rows K) bl)) as [rs1|] eqn:E1; [|discriminate].
        injection E as <-. f_equal.
        - unfold block_rows in En. destruct (flat_map _ row) as [|n' l] eqn:EF; [discriminate|].
          assert (n' = n) by (destruct (forallb _ l); congruence). subst n'.
          assert (I : In n (n :: l)) by (left; reflexivity). rewrite <- EF in I. apply in_flat_map in I. destruct I as ([M|] & I & I'); [|destruct I'].
          destruct I' as [<-|[]]. apply In_nth_error in I. destruct I as [l' El]. destruct (SB s l' row M) as [-> _]; [|exact El|].
          + specialize (HB 0%nat row eq_refl). rewrite Nat.add_0_r in HB. exact HB.
          + specialize (HV 0%nat). simpl in HV. rewrite Nat.add_0_r in HV. rewrite HV. reflexivity.
        - apply (IH vs rs1 (S s)); [lia| | |reflexivity].
          + intros k row' Ek. replace (S s + k)%nat with (s + S k)%nat by lia. apply HB. exact Ek.
          + intros k. replace (S s + k)%nat with (s + S k)%nat by lia. apply (HV (S k)). }
      apply (G blocks rvs rs 0%nat BR); auto.
    Qed.
    Lemma all_some_cols cs n : n = length cvs -> all_some (map (block_cols K blocks) (seq 0 n)) = Some cs -> cs = map (@length nat) cvs.
    Proof.
      intros -> E. replace (map (@length nat) cvs) with (map (fun l => length (nth l cvs [])) (seq 0 (length cvs))).
      - revert cs E. generalize (seq 0 (length cvs)). induction l as [|x l IH]; intros cs E; simpl in *; [congruence|].
        destruct (block_cols K blocks x) as [n|] eqn:En; [|discriminate]. destruct (all_some (map (block_cols K blocks) l)) as [cs1|]; [|discriminate].
        injection E as <-. f_equal; [|apply IH; reflexivity].
        unfold block_cols in En. destruct (flat_map _ blocks) as [|n' l'] eqn:EF; [discriminate|].
        assert (n' = n) by (destruct (forallb _ l'); congruence). subst n'.
        assert (I : In n (n :: l')) by (left; reflexivity). rewrite <- EF in I. apply in_flat_map in I. destruct I as (row & I & I').
        destruct (nth x row None) as [M|] eqn:EM; [|destruct I']. destruct I' as [<-|[]]. apply In_nth_error in I. destruct I as [k Ek].
        apply (SB k x row M Ek). destruct (nth_error row x) eqn:EN.
        + rewrite (nth_error_nth _ _ None EN) in EM. congruence.
        + apply nth_error_None in EN. rewrite nth_overflow in EM by assumption. discriminate.
      - clear. apply list_ext_nth_error. intros i. rewrite nth_error_map_seq. destruct (Nat.ltb_spec i (length cvs)).
        + rewrite nth_error_map, (nth_error_nth' cvs [] ) by assumption. reflexivity.
        + symmetry. apply nth_error_None. rewrite map_length. assumption.
    Qed.

    Lemma bmat_scat B : bmat K blocks = Some B -> (forall row, nth_error blocks 0 = Some row -> length row = length cvs) ->
      forall p q a b, (p < length rvs)%nat -> (q < length cvs)%nat -> (a < nth p ns 0)%nat -> (b < nth q ms 0)%nat ->
      scat K (shifted rvs ns) (shifted cvs ms) (ent K B) (sum (firstn p ns) + a) (sum (firstn q ms) + b) =
      match nth q (nth p blocks []) None with
      | Some M => scat K (nth p rvs []) (nth q cvs []) (ent K M) a b
      | None => 0
      end.
    Proof.
      intros EB HL p q a b Hp Hq Ha Hb. unfold bmat in EB. destruct blocks as [|row0 bl] eqn:EBL; [discriminate|]. rewrite <- EBL in *.
      destruct (forallb _ blocks); [|discriminate].
      destruct (all_some (map (block_rows K) blocks)) as [rs|] eqn:E1; [|discriminate].
      destruct (all_some (map (block_cols K blocks) (seq 0 (length row0)))) as [cs|] eqn:E2; [|discriminate]. injection EB as <-.
      apply all_some_rows in E1. apply all_some_cols in E2; [|apply HL; rewrite EBL; reflexivity]. subst rs cs.
      unfold scat. cbn [ent].
      set (blk := fun (x y : nat * nat) => match nth (fst y) (nth (fst x) blocks []) None with Some M => ent K M (snd x) (snd y) | None => 0 end).
      transitivity (bsum (enumerate (shifted rvs ns)) (fun x => if snd x =? sum (firstn p ns) + a then
         bsum (enumerate (shifted cvs ms)) (fun y => if snd y =? sum (firstn q ms) + b then blk (locate (map (@length nat) rvs) 0 (fst x)) (locate (map (@length nat) cvs) 0 (fst y)) else 0) else 0)).
      { apply bsum_ext. intros x _. destruct (snd x =? _); simpl.
        - apply bsum_ext. intros y _. destruct (snd y =? _); [|reflexivity]. unfold blk. destruct (locate (map (@length nat) rvs) 0 (fst x)), (locate (map (@length nat) cvs) 0 (fst y)). reflexivity.
        - apply bsum_0. reflexivity. }
      rewrite (pick_block rvs ns p a (fun kx => bsum (enumerate (shifted cvs ms)) (fun y => if snd y =? sum (firstn q ms) + b then blk kx (locate (map (@length nat) cvs) 0 (fst y)) else 0)) LR RR Hp Ha).
      unfold blk. cbn [fst snd].
      transitivity (bsum (enumerate (nth p rvs [])) (fun x => if snd x =? a then bsum (enumerate (nth q cvs [])) (fun y => if snd y =? b then
         match nth q (nth p blocks []) None with Some M => ent K M (fst x) (fst y) | None => 0 end else 0) else 0)).
      { apply bsum_ext. intros x _. destruct (snd x =? a); [|reflexivity].
        exact (pick_block cvs ms q b (fun ky => match nth (fst ky) (nth p blocks []) None with Some M => ent K M (fst x) (snd ky) | None => 0 end) LC RC Hq Hb). }
      destruct (nth q (nth p blocks []) None) as [M|].
      - apply bsum_ext. intros x _. destruct (snd x =? a); simpl; [reflexivity|]. symmetry. apply bsum_0. reflexivity.
      - apply bsum_0. intros x _. destruct (snd x =? a); [|reflexivity]. apply bsum_0. intros y _. destruct (snd y =? b); reflexivity.
    Qed.

    Lemma vstack_scat vs : (forall k, vlen K (nth k vs (mkV K 0 (fun _ => 0))) = length (nth k rvs [])) -> length vs = length rvs ->
      forall p a, (p < length rvs)%nat -> (a < nth p ns 0)%nat ->
      vscat K (shifted rvs ns) (vent K (vstack K vs)) (sum (firstn p ns) + a) =
      vscat K (nth p rvs []) (vent K (nth p vs (mkV K 0 (fun _ => 0)))) a.
    Proof using LR RR.
      clear SB BR LC RC blocks cvs ms. intros HV HL p a Hp Ha. unfold vscat, vstack. cbn [vent].
      assert (EL : map (vlen K) vs = map (@length nat) rvs).
      { apply list_ext_nth_error. intros k. rewrite !nth_error_map. specialize (HV k). destruct (nth_error vs k) eqn:E1; destruct (nth_error rvs k) eqn:E2; simpl; try reflexivity.
        - rewrite (nth_error_nth _ _ _ E1), (nth_error_nth _ _ _ E2) in HV. congruence.
        - apply nth_error_None in E2. assert (k < length vs)%nat by (apply nth_error_Some; congruence). lia.
        - apply nth_error_None in E1. assert (k < length rvs)%nat by (apply nth_error_Some; congruence). lia. }
      rewrite EL.
      transitivity (bsum (enumerate (shifted rvs ns)) (fun q => if snd q =? sum (firstn p ns) + a then
         (fun kx => match nth_error vs (fst kx) with Some x => vent K x (snd kx) | None => 0 end) (locate (map (@length nat) rvs) 0 (fst q)) else 0)).
      { apply bsum_ext. intros q _. destruct (snd q =? _); [|reflexivity]. destruct (locate _ 0 (fst q)). reflexivity. }
      rewrite (pick_block rvs ns p a (fun kx => match nth_error vs (fst kx) with Some x => vent K x (snd kx) | None => 0 end) LR RR Hp Ha).
      apply bsum_ext. intros q _. cbn [fst snd]. rewrite (nth_error_nth' vs (mkV K 0 (fun _ => 0))) by lia. reflexivity.
    Qed.
  End Local.

  Section Chained.
    Variables (SIZE : nat) (rgms cgms : list GMat) (ns ms : list nat).
    Hypothesis WN : well_numbered SIZE rgms ns.
    Hypothesis WM : well_numbered SIZE cgms ms.
    Hypothesis SC : same_cores SIZE (nth 0 rgms []) (nth 0 cgms []).

    Lemma local_nth gms sz r e k : well_numbered SIZE gms sz -> (r < SIZE)%nat -> In e (elements (nth 0 gms []) r) -> (k < length gms)%nat ->
      nth k (local_vectors gms r e) [] = match gv_of (nth k gms []) r e with Some v => v | None => [] end.
    Proof.
      intros W Hr He Hk. unfold local_vectors. erewrite nth_indep by (rewrite map_length; exact Hk).
      rewrite (map_nth (fun g => match gv_of g r e with Some v => v | None => [] end)). reflexivity.
    Qed.
    Lemma local_lt gms sz r e k v d : well_numbered SIZE gms sz -> nth_error (local_vectors gms r e) k = Some v -> In d v -> (d < nth k sz 0)%nat.
    Proof.
      intros W E I. unfold local_vectors in E. rewrite nth_error_map in E. destruct (nth_error gms k) as [g|] eqn:Eg; [|discriminate]. simpl in E. injection E as <-.
      destruct (gv_of g r e) as [v|] eqn:Ev; [|destruct I].
      assert (Hk : (k < length sz)%nat) by (rewrite (wn_len _ _ _ W); apply nth_error_Some; congruence).
      destruct (wn_dofs _ _ _ W k g (nth k sz 0%nat) Eg) as [_ D]; [apply nth_error_nth'; assumption|]. apply D. exists r, e, v. auto.
    Qed.

    Lemma bmat_chain r e blocks B : (r < SIZE)%nat -> In e (elements (nth 0 rgms []) r) ->
      length blocks = length rgms -> (forall row, In row blocks -> length row = length cgms) ->
      (forall p q M, nth q (nth p blocks []) None = Some M -> exists gi gj, gv_of (nth p rgms []) r e = Some gi /\ gv_of (nth q cgms []) r e = Some gj /\
         nrow K M = length gi /\ ncol K M = length gj) ->
      bmat K blocks = Some B ->
      exists gi gj, CGM_getitem SIZE rgms Silly r e = Some gi /\ CGM_getitem SIZE cgms Silly r e = Some gj /\
      forall p q a b, (p < length rgms)%nat -> (q < length cgms)%nat -> (a < nth p ns 0)%nat -> (b < nth q ms 0)%nat ->
        scat K gi gj (ent K B) (sum (firstn p ns) + a) (sum (firstn q ms) + b) =
        match nth q (nth p blocks []) None, gv_of (nth p rgms []) r e, gv_of (nth q cgms []) r e with
        | Some M, Some gp, Some gq => scat K gp gq (ent K M) a b
        | _, _, _ => 0
        end.
    Proof.
      intros Hr He L1 L2 HB EB. assert (He' : In e (elements (nth 0 cgms []) r)) by (apply SC; assumption).
      rewrite (silly_value _ _ _ WN r e Hr He), (silly_value _ _ _ WM r e Hr He').
      eexists _, _. split; [reflexivity|]. split; [reflexivity|]. intros p q a b Hp Hq Ha Hb.
      assert (LV : forall gms, length (local_vectors gms r e) = length gms) by (intros; apply map_length).
      pose proof (bmat_scat (local_vectors rgms r e) (local_vectors cgms r e) ns ms) as X. unfold shifted in X.
      rewrite X with (blocks := blocks); clear X; rewrite ?LV; try assumption.
      - destruct (nth q (nth p blocks []) None) as [M|] eqn:EM; [|reflexivity]. destruct (HB _ _ _ EM) as (gi & gj & Q1 & Q2 & _).
        rewrite (local_nth rgms ns), (local_nth cgms ms) by assumption. rewrite Q1, Q2. reflexivity.
      - apply (wn_len _ _ _ WN).
      - apply (wn_len _ _ _ WM).
      - intros. eapply local_lt; eassumption.
      - intros. eapply local_lt; eassumption.
      - intros k l row M Ek El. pose proof (nth_error_In _ _ Ek) as Irow.
        assert (Hk : (k < length rgms)%nat) by (rewrite <- L1; apply nth_error_Some; congruence).
        assert (Hl : (l < length cgms)%nat) by (rewrite <- (L2 row Irow); apply nth_error_Some; congruence).
        rewrite (local_nth rgms ns), (local_nth cgms ms) by assumption.
        destruct (HB k l M) as (gi & gj & -> & -> & Q1 & Q2); [|auto]. rewrite (nth_error_nth _ _ [] Ek). apply nth_error_nth. assumption.
      - intros row Er. apply L2. eapply nth_error_In. exact Er.
    Qed.

    Lemma vstack_chain r e vs : (r < SIZE)%nat -> In e (elements (nth 0 rgms []) r) -> length vs = length rgms ->
      (forall p v, nth_error vs p = Some v -> exists gi, gv_of (nth p rgms []) r e = Some gi /\ vlen K v = length gi) ->
      exists gi, CGM_getitem SIZE rgms Silly r e = Some gi /\
      forall p v a, nth_error vs p = Some v -> (a < nth p ns 0)%nat ->
        vscat K gi (vent K (vstack K vs)) (sum (firstn p ns) + a) =
        match gv_of (nth p rgms []) r e with Some gp => vscat K gp (vent K v) a | None => 0 end.
    Proof.
      intros Hr He L1 HB. rewrite (silly_value _ _ _ WN r e Hr He).
      eexists. split; [reflexivity|]. intros p v a Ep Ha.
      assert (LV : length (local_vectors rgms r e) = length rgms) by apply map_length.
      assert (Hp : (p < length rgms)%nat) by (rewrite <- L1; apply nth_error_Some; congruence).
      pose proof (vstack_scat (local_vectors rgms r e) ns) as X. unfold shifted in X.
      rewrite X with (vs := vs); clear X; rewrite ?LV; try assumption.
      - destruct (HB p v Ep) as (gi & Q & _). rewrite (local_nth rgms ns) by assumption. rewrite Q, (nth_error_nth _ _ _ Ep). reflexivity.
      - exact (eq_trans (wn_len _ _ _ WN) (eq_sym LV)).
      - intros. eapply local_lt; eassumption.
      - intros k. destruct (Nat.lt_ge_cases k (length rgms)) as [Hk|Hk].
        + destruct (nth_error vs k) as [w|] eqn:Ek; [|apply nth_error_None in Ek; lia]. rewrite (nth_error_nth _ _ _ Ek).
          destruct (HB k w Ek) as (gi & Q & ->). rewrite (local_nth rgms ns) by assumption. rewrite Q. reflexivity.
        + rewrite (nth_overflow vs) by lia. rewrite nth_overflow by (change (length (local_vectors rgms r e) <= k)%nat; rewrite LV; lia). reflexivity.
      - exact (eq_trans L1 (eq_sym LV)).
      - exact (eq_ind_r (fun z => p < z)%nat Hp LV).
    Qed.
  End Chained.
End BmatP.

Lemma all_some_defined {A} (l : list (option A)) : (forall x, In x l -> x <> None) -> all_some l <> None.
Proof.
  induction l as [|x l IH]; intros H; [discriminate|]. cbn. destruct x as [x|]; [|exfalso; apply (H None); [left|]; reflexivity].
  destruct (all_some l) eqn:E; [discriminate|]. intros _. apply IH; [|reflexivity]. intros y Hy. apply H. right. exact Hy.
Qed.
Lemma bmat_defined (K : CRing) (blocks : list (list (option (lmat K)))) nc h w :
  blocks <> [] -> (forall row, In row blocks -> length row = nc) ->
  (forall p q M, nth q (nth p blocks []) None = Some M -> nrow K M = h p /\ ncol K M = w q) ->
  (forall p, p < length blocks -> exists q M, nth q (nth p blocks []) None = Some M) ->
  (forall q, q < nc -> exists p M, nth q (nth p blocks []) None = Some M) ->
  bmat K blocks <> None.
Proof.
  intros NE LEN CON ROW COL. unfold bmat. destruct blocks as [|row0 bl]; [congruence|]. set (blocks := row0 :: bl) in *.
  assert (L0 : length row0 = nc) by (apply LEN; left; reflexivity).
  replace (forallb _ _) with true; [|symmetry; apply forallb_forall; intros row H; apply Nat.eqb_eq; rewrite (LEN row H); congruence].
  assert (R : all_some (map (block_rows K) blocks) <> None).
  { apply all_some_defined. intros x Hx. apply in_map_iff in Hx. destruct Hx as (row & <- & HI). destruct (In_nth _ _ [] HI) as (p & Hp & <-).
    unfold block_rows. assert (A : forall n, In n (flat_map (fun b => match b with Some M => [nrow K M] | None => [] end) (nth p blocks [])) -> n = h p).
    { intros n Hn. apply in_flat_map in Hn. destruct Hn as (b & Hb & Hn). destruct b as [M|]; [|destruct Hn]. destruct Hn as [<-|[]].
      destruct (In_nth _ _ None Hb) as (q & Hq & E). apply (CON p q M E). }
    destruct (flat_map _ (nth p blocks [])) as [|n ns] eqn:E.
    - destruct (ROW p Hp) as (q & M & EM). exfalso. assert (X : In (nrow K M) []); [|destruct X]. rewrite <- E. apply in_flat_map. exists (Some M). split; [|left; reflexivity].
      rewrite <- EM. apply nth_In. destruct (Nat.lt_ge_cases q (length (nth p blocks []))) as [G|G]; [exact G|]. rewrite nth_overflow in EM by exact G. discriminate.
    - replace (forallb _ ns) with true; [discriminate|]. symmetry. apply forallb_forall. intros n' Hn'. apply Nat.eqb_eq.
      rewrite (A n (or_introl eq_refl)), (A n' (or_intror Hn')). reflexivity. }
  assert (C : all_some (map (block_cols K blocks) (seq 0 (length row0))) <> None).
  { apply all_some_defined. intros x Hx. apply in_map_iff in Hx. destruct Hx as (q & <- & HI). apply in_seq in HI.
    unfold block_cols. assert (A : forall n, In n (flat_map (fun row => match nth q row None with Some M => [ncol K M] | None => [] end) blocks) -> n = w q).
    { intros n Hn. apply in_flat_map in Hn. destruct Hn as (row & Hb & Hn). destruct (In_nth _ _ [] Hb) as (p & Hp & E). destruct (nth q row None) as [M|] eqn:EM; [|destruct Hn].
      destruct Hn as [<-|[]]. subst row. apply (CON p q M EM). }
    destruct (flat_map _ blocks) as [|n ns] eqn:E.
    - destruct (COL q ltac:(lia)) as (p & M & EM). exfalso. assert (X : In (ncol K M) []); [|destruct X]. rewrite <- E. apply in_flat_map. exists (nth p blocks []). split.
      + apply nth_In. destruct (Nat.lt_ge_cases p (length blocks)) as [G|G]; [exact G|]. rewrite (nth_overflow blocks) in EM by exact G. destruct q; discriminate.
      + rewrite EM. left. reflexivity.
    - replace (forallb _ ns) with true; [discriminate|]. symmetry. apply forallb_forall. intros n' Hn'. apply Nat.eqb_eq.
      rewrite (A n (or_introl eq_refl)), (A n' (or_intror Hn')). reflexivity. }
  destruct (all_some (map (block_rows K) blocks)); [|congruence]. destruct (all_some _); [discriminate|congruence].
Qed.
