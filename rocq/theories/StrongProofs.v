(** Proofs for C66: positions of a block in chained gathering vectors, places of dofs, entries after identification of rows. *)
From Coq Require Import List Arith ZArith Bool Lia Permutation.
From Verif Require Import Prelude PreludeProofs RingSum AssembleModel AssembleProofs GatherModel GatherSpec GatherProofs
  EwcModel EwcProofs VCusProofs AsmModel AsmSpec AsmProofs RowsProofs StrongModel StrongSpec.
Import ListNotations.

(** * concatenation of shifted vectors *)
Lemma cat_nth (F : nat -> nat -> nat) : forall ls k q a,
  nth_error (concat (map (fun jv => map (F (fst jv)) (snd jv)) (combine (seq k (length ls)) ls))) q = Some a <->
  exists j v d n, nth_error ls j = Some v /\ nth_error v d = Some n /\ q = sum (map (@length nat) (firstn j ls)) + d /\ a = F (k + j) n.
Proof.
  induction ls as [|v ls IH]; intros k q a.
  - simpl. split; [destruct q; discriminate|]. intros (j & v & d & n & H & _). destruct j; discriminate.
  - assert (S1 : forall j, sum (map (@length nat) (firstn (S j) (v :: ls))) = length v + sum (map (@length nat) (firstn j ls))) by reflexivity.
    cbn [length seq combine map concat fst snd]. destruct (Nat.lt_ge_cases q (length v)) as [L|L].
    + rewrite nth_error_app1 by (rewrite map_length; exact L). rewrite nth_error_map. split.
      * destruct (nth_error v q) as [n|] eqn:E; [|discriminate]. cbn. intros [= <-]. exists 0, v, q, n. rewrite Nat.add_0_r. auto.
      * intros (j & w & d & n & E1 & E2 & -> & ->). destruct j as [|j].
        -- cbn in E1. injection E1 as <-. cbn. rewrite E2, Nat.add_0_r. reflexivity.
        -- rewrite S1 in L. lia.
    + rewrite nth_error_app2, map_length by (rewrite map_length; exact L). rewrite (IH (S k)). split.
      * intros (j & w & d & n & E1 & E2 & E3 & E4). exists (S j), w, d, n. rewrite S1, <- plus_n_Sm. repeat split; try assumption. lia.
      * intros (j & w & d & n & E1 & E2 & E3 & E4). destruct j as [|j].
        -- cbn in E1. injection E1 as <-. cbn in E3. assert (d < length v) by (apply nth_error_Some; congruence). lia.
        -- exists j, w, d, n. rewrite S1 in E3. rewrite <- plus_n_Sm in E4. repeat split; try assumption. lia.
Qed.

Lemma maxl_const (l : list nat) L : l <> [] -> Forall (eq L) l -> maxl l = L.
Proof.
  induction l as [|x l IH]; intros N H; [congruence|]. inversion H; subst. destruct l as [|y l].
  - unfold maxl. cbn. lia.
  - specialize (IH ltac:(discriminate) H3). unfold maxl in *. cbn [fold_right] in *. lia.
Qed.

(** * one block of a chain *)
Section Block.
  Variables (SIZE : nat) (gms : list GMat) (ns : list nat).
  Hypothesis WN : well_numbered SIZE gms ns.
  Hypothesis RG : forall g, In g gms -> regular g.
  Notation rv := (CGM_getitem SIZE gms Silly).
  Notation els r := (elements (nth 0 gms []) r).

  Lemma gv_len_ok g r e v : In g gms -> gv_of g r e = Some v -> length v = gv_len g.
  Proof.
    intros Hg E. destruct (RG g Hg) as (L & HL). rewrite (HL r e v E). symmetry. apply maxl_const.
    - assert (I : In (e, v) (concat g)).
      { apply in_concat. exists (gm_local g r). pose proof (lookup_In _ _ _ E) as I. split; [|exact I]. unfold gm_local in *. destruct (nth_in_or_default r g []) as [H|H]; [exact H|].
        exfalso. clear -H I. assert (X : nth r g [] = []) by exact H. rewrite X in I. destruct I. }
      destruct (concat g); [destruct I|discriminate].
    - apply Forall_forall. intros n Hn. apply in_map_iff in Hn. destruct Hn as ((e' & v') & <- & I). apply in_concat in I. destruct I as (m & Im & I).
      apply In_nth_error in Im. destruct Im as (r' & Er). symmetry. apply (HL r' e' v'). unfold gv_of. apply lookup_In_iff.
      + apply (wn_keys _ _ _ WN g r' Hg).
      + unfold gm_local. rewrite (nth_error_nth _ _ _ Er). exact I.
  Qed.
  Lemma block_els g r e : In g gms -> (In e (elements g r) <-> In e (els r)).
  Proof.
    intros Hg. assert (H0 : In (nth 0 gms []) gms) by (destruct gms; [destruct (wn_some _ _ _ WN eq_refl)|left; reflexivity]).
    split; apply (wn_elem _ _ _ WN); assumption.
  Qed.

  Variables (i : nat) (g : GMat).
  Hypothesis Hi : nth_error gms i = Some g.
  Notation si := (sum (firstn i (map gv_len gms))).
  Notation oi := (sum (firstn i ns)).

  Lemma Hg : In g gms. Proof. eapply nth_error_In. exact Hi. Qed.
  Lemma n_some : exists n, nth_error ns i = Some n.
  Proof.
    destruct (nth_error ns i) as [n|] eqn:E; [eauto|]. apply nth_error_None in E. rewrite (wn_len _ _ _ WN) in E.
    assert (i < length gms) by (apply nth_error_Some; congruence). lia.
  Qed.
  Lemma block_start_ok : block_start gms i = Some si.
  Proof.
    unfold block_start. assert (Li : i < length gms) by (apply nth_error_Some; congruence).
    assert (G : forall l acc k, k < length l -> nth_error (To_Be_Added acc l) k = Some (acc + sum (firstn k l))).
    { induction l as [|x l IH]; intros acc k Hk; [cbn in Hk; lia|]. destruct k as [|k]; cbn [To_Be_Added nth_error firstn]; [unfold sum; cbn; f_equal; lia|].
      rewrite IH by (cbn in Hk; lia). f_equal. unfold sum. cbn [fold_right]. lia. }
    apply G. rewrite map_length. exact Li.
  Qed.
  Lemma vec_some r e : r < SIZE -> In e (els r) -> exists v, gv_of g r e = Some v.
  Proof. intros Hr He. apply lookup_keys. apply (block_els g r e Hg). exact He. Qed.
  Lemma lv_nth r e v : gv_of g r e = Some v -> nth_error (local_vectors gms r e) i = Some v.
  Proof. intros E. unfold local_vectors. rewrite nth_error_map, Hi. cbn. rewrite E. reflexivity. Qed.
  Lemma lv_len r e : r < SIZE -> In e (els r) -> map (@length nat) (local_vectors gms r e) = map gv_len gms.
  Proof.
    intros Hr He. unfold local_vectors. rewrite map_map. apply map_ext_in. intros h Hh.
    assert (X : exists w, gv_of h r e = Some w) by (apply lookup_keys, (block_els h r e Hh); exact He). destruct X as (w & E). rewrite E. eapply gv_len_ok; eassumption.
  Qed.
  Lemma num_lt r e v d n k : gv_of g r e = Some v -> nth_error v d = Some n -> nth_error ns i = Some k -> n < k.
  Proof.
    intros E1 E2 E3. apply (wn_dofs _ _ _ WN i g k Hi E3). exists r, e, v. split; [exact E1|]. eapply nth_error_In. exact E2.
  Qed.
  (** the dofs of the block in the chained vector *)
  Lemma at_block r e gi v d n : r < SIZE -> In e (els r) -> rv r e = Some gi -> gv_of g r e = Some v -> nth_error v d = Some n ->
    nth_error gi (si + d) = Some (oi + n).
  Proof.
    intros Hr He Eg Ev En. rewrite (silly_value _ _ _ WN r e Hr He) in Eg. injection Eg as <-. unfold enumerate.
    apply (cat_nth (fun j d => d + sum (firstn j ns))). exists i, v, d, n. split; [apply lv_nth; exact Ev|]. split; [exact En|].
    rewrite <- firstn_map, lv_len by assumption. split; [reflexivity|]. cbn [Nat.add]. apply Nat.add_comm.
  Qed.
  Lemma of_block r e gi v q n k : r < SIZE -> In e (els r) -> rv r e = Some gi -> gv_of g r e = Some v -> nth_error ns i = Some k -> n < k ->
    nth_error gi q = Some (oi + n) -> exists d, q = si + d /\ nth_error v d = Some n.
  Proof.
    intros Hr He Eg Ev Ek Hn Eq. rewrite (silly_value _ _ _ WN r e Hr He) in Eg. injection Eg as <-. unfold enumerate in Eq.
    apply (cat_nth (fun j d => d + sum (firstn j ns))) in Eq. destruct Eq as (j & w & d & m & E1 & E2 & -> & E4). cbn [Nat.add] in E4.
    unfold local_vectors in E1. rewrite nth_error_map in E1. destruct (nth_error gms j) as [h|] eqn:Ej; [|discriminate]. cbn in E1. injection E1 as <-.
    assert (Hh : In h gms) by (eapply nth_error_In; exact Ej).
    assert (X : exists u, gv_of h r e = Some u) by (apply lookup_keys, (block_els h r e Hh); exact He). destruct X as (u & Eu). rewrite Eu in E2.
    assert (Lj : j < length ns) by (rewrite (wn_len _ _ _ WN); apply nth_error_Some; congruence).
    assert (Li : i < length ns) by (apply nth_error_Some; congruence).
    assert (Hm : m < nth j ns 0).
    { destruct (nth_error ns j) as [k'|] eqn:Ek'; [|apply nth_error_None in Ek'; lia]. rewrite (nth_error_nth _ _ _ Ek').
      apply (wn_dofs _ _ _ WN j h k' Ej Ek'). exists r, e, u. split; [exact Eu|]. eapply nth_error_In. exact E2. }
    destruct (offset_inj ns j m i n Lj Li Hm) as (-> & ->); [rewrite (nth_error_nth _ _ _ Ek); exact Hn|lia|].
    exists d. rewrite <- firstn_map, lv_len by assumption. split; [reflexivity|]. congruence.
  Qed.
  Lemma in_places n r e d : In (r, e, d) (places SIZE g n) <-> r < SIZE /\ exists v, gv_of g r e = Some v /\ nth_error v d = Some n.
  Proof.
    unfold places. rewrite in_flat_map. split.
    - intros (r' & Hr & H). apply in_seq in Hr. apply in_flat_map in H. destruct H as ((e' & v) & He & H). apply in_map_iff in H. destruct H as (d' & [= -> -> ->] & Hd).
      apply filter_In in Hd. destruct Hd as (Hd & Q). cbn [fst snd] in *. apply in_seq in Hd. split; [lia|]. exists v. split.
      + apply lookup_In_iff; [apply (wn_keys _ _ _ WN g r Hg)|exact He].
      + apply Nat.eqb_eq in Q. rewrite (nth_error_nth' v (S n)) by lia. rewrite Q. reflexivity.
    - intros (Hr & v & Ev & En). exists r. split; [apply in_seq; lia|]. apply in_flat_map. exists (e, v). split; [apply lookup_In; exact Ev|].
      apply in_map_iff. exists d. split; [reflexivity|]. cbn [snd]. apply filter_In. split; [apply in_seq; assert (d < length v) by (apply nth_error_Some; congruence); lia|].
      rewrite (nth_error_nth _ _ _ En). apply Nat.eqb_refl.
  Qed.
  (** a sum over the places of a dof, element by element of the first matrix of the chain *)
  Lemma bsum_places (K : CRing) n (f : nat * nat * nat -> K) :
    bsum (places SIZE g n) f = bsum (seq 0 SIZE) (fun r => bsum (els r) (fun e =>
      match gv_of g r e with
      | Some v => bsum (filter (fun d => nth d v (S n) =? n) (seq 0 (length v))) (fun d => f (r, e, d))
      | None => r0 end)).
  Proof.
    unfold places. rewrite bsum_flat_map. apply bsum_ext. intros r Hr. apply in_seq in Hr. rewrite bsum_flat_map.
    assert (P : Permutation (els r) (map fst (gm_local g r))).
    { assert (H0 : In (nth 0 gms []) gms) by (destruct gms; [destruct (wn_some _ _ _ WN eq_refl)|left; reflexivity]).
      apply NoDup_Permutation; [apply (wn_keys _ _ _ WN _ r H0)|apply (wn_keys _ _ _ WN g r Hg)|]. intros e. symmetry. apply (block_els g r e Hg). }
    rewrite (bsum_perm _ _ _ _ P), bsum_map. apply bsum_ext. intros (e & v) He. cbn [fst snd].
    assert (E : gv_of g r e = Some v) by (apply lookup_In_iff; [apply (wn_keys _ _ _ WN g r Hg)|exact He]). rewrite E, bsum_map. reflexivity.
  Qed.
  Lemma places_some n k : nth_error ns i = Some k -> n < k -> places SIZE g n <> [].
  Proof.
    intros Ek Hn. apply (wn_dofs _ _ _ WN i g k Hi Ek) in Hn. destruct Hn as (r & e & v & Ev & I). apply In_nth_error in I. destruct I as (d & Ed).
    assert (Hr : r < SIZE).
    { destruct (Nat.lt_ge_cases r SIZE) as [L|L]; [exact L|]. exfalso. unfold gv_of, gm_local in Ev. rewrite nth_overflow in Ev by (rewrite (wn_size _ _ _ WN g Hg); exact L). discriminate. }
    intros Q. assert (X : In (r, e, d) (places SIZE g n)) by (apply in_places; eauto). rewrite Q in X. destruct X.
  Qed.
End Block.

(** * prescribed dofs *)
Definition prescribedb (SIZE : nat) (g : GMat) (D : nat -> list (nat * list nat)) (n : nat) : bool :=
  existsb (fun p => existsb (Nat.eqb (snd p)) (dofs_at D (fst (fst p)) (snd (fst p)))) (places SIZE g n).
Lemma prescribedb_ok SIZE gms ns (WN : well_numbered SIZE gms ns) i g (Hi : nth_error gms i = Some g) D n :
  prescribedb SIZE g D n = true <-> prescribed SIZE g D n.
Proof.
  unfold prescribedb, prescribed. rewrite existsb_exists. split.
  - intros (((r & e) & d) & H & Q). apply (in_places _ _ _ WN i g Hi) in H. destruct H as (Hr & v & Ev & En). apply existsb_exists in Q. destruct Q as (d' & Hd & Q).
    cbn [fst snd] in *. apply Nat.eqb_eq in Q. subst d'. exists r, e, v, d. auto.
  - intros (r & e & v & d & Hr & Ev & En & Hd). exists (r, e, d). split; [apply (in_places _ _ _ WN i g Hi); eauto|]. apply existsb_exists. exists d. split; [exact Hd|apply Nat.eqb_refl].
Qed.

(** * the entries after the operations *)
Section Ops.
  Variable K : CRing.
  Lemma set_ents_ok ps v : forall M : lmat K, Forall (fun p => fst p < nrow K M /\ snd p < ncol K M) ps ->
    exists M', set_ents K ps v M = Some M' /\ nrow K M' = nrow K M /\ ncol K M' = ncol K M /\
      forall a b, (In (a, b) ps -> ent K M' a b = v) /\ (~ In (a, b) ps -> ent K M' a b = ent K M a b).
  Proof.
    induction ps as [|(x, y) ps IH]; intros M F.
    - exists M. cbn. split; [reflexivity|]. split; [reflexivity|]. split; [reflexivity|]. intros a b. split; [intros []|reflexivity].
    - inversion F as [|? ? (H1 & H2) F']; subst. cbn [fst snd] in *. cbn [set_ents]. unfold set_ent.
      destruct (Nat.ltb_spec x (nrow K M)); [|lia]. destruct (Nat.ltb_spec y (ncol K M)); [|lia]. cbn [andb].
      destruct (IH (mkL K (nrow K M) (ncol K M) (fun a b => if (a =? x) && (b =? y) then v else ent K M a b)) F') as (M' & E & N1 & N2 & HE).
      exists M'. split; [exact E|]. split; [exact N1|]. split; [exact N2|]. intros a b. destruct (HE a b) as (G1 & G2). cbn [ent] in G2.
      destruct (in_dec (fun p q : nat * nat => ltac:(decide equality; apply Nat.eq_dec)) (a, b) ps) as [I|I].
      + split; [intros _; apply G1; exact I|]. intros N. exfalso. apply N. right. exact I.
      + specialize (G2 I). rewrite G2. split.
        * intros [Q|Q]; [|contradiction]. injection Q as -> ->. rewrite !Nat.eqb_refl. reflexivity.
        * intros N. destruct (Nat.eqb_spec a x) as [->|Na]; [|reflexivity]. destruct (Nat.eqb_spec b y) as [->|Nb]; [|reflexivity]. exfalso. apply N. left. reflexivity.
  Qed.
  Lemma ilrsac_ok rs cs (M : lmat K) : length rs = length cs -> Forall (fun x => x < nrow K M) rs -> Forall (fun x => x < ncol K M) cs ->
    exists M', apply_cusop K r0 r1 (ilrsac rs cs) M = Some M' /\ nrow K M' = nrow K M /\ ncol K M' = ncol K M /\
      forall a b, (In (a, b) (combine rs cs) -> ent K M' a b = r1) /\
                  (~ In (a, b) (combine rs cs) -> ent K M' a b = if existsb (Nat.eqb a) rs then r0 else ent K M a b).
  Proof.
    intros L F1 F2. cbn [apply_cusop]. rewrite (proj2 (Nat.eqb_eq _ _) L). unfold zero_rows.
    assert (T : forallb (fun r => r <? nrow K M) rs = true) by (apply forallb_forall; intros x Hx; apply Nat.ltb_lt; rewrite Forall_forall in F1; auto). rewrite T.
    edestruct (set_ents_ok (combine rs cs) r1 (mkL K (nrow K M) (ncol K M) (fun i j => if existsb (Nat.eqb i) rs then r0 else ent K M i j))) as (M' & E & N1 & N2 & HE).
    { apply Forall_forall. intros (x & y) H. cbn [nrow ncol fst snd]. rewrite Forall_forall in F1, F2. split; [apply F1; eapply in_combine_l; exact H|apply F2; eapply in_combine_r; exact H]. }
    exists M'. auto.
  Qed.
  Lemma ilrs_ilrsac rs (M : lmat K) : apply_cusop K r0 r1 (ilrs rs) M = apply_cusop K r0 r1 (ilrsac rs rs) M.
  Proof. cbn [apply_cusop]. rewrite Nat.eqb_refl. reflexivity. Qed.
End Ops.
