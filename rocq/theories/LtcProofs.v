(** Cochains of local trace forms. *)
From Coq Require Import List Arith ZArith Lia Bool.
From Verif Require Import Prelude RingSum AssembleModel AssembleSpec AssembleProofs TewModel TewSpec TewProofs TewProofs2 LtcModel LtcSpec.
Import ListNotations.

(** A local trace form as a trace form with a trace element for each side. *)
Definition as_t (m : ltform) : tform :=
  mktform (map (fun e => (e, map (fun a => 6 * e + a) (seq 0 6))) (l_els m))
    (flat_map (fun e => map (fun a => (6 * e + a, (e, a))) (seq 0 6)) (l_els m))
    (l_onside m) (l_basis m) (l_dofs m).
Lemma as_t_side m te e a : on_side (as_t m) te e a -> In e (l_els m) /\ a < 6 /\ te = 6 * e + a.
Proof.
  intros (tes & I & A). cbn [as_t t_map] in I. apply in_map_iff in I as (e' & E & I). injection E as -> <-. split; [exact I|].
  do 6 (destruct a as [|a]; [split; [lia|]; cbn [map seq nth_error] in A; injection A as <-; lia|]). destruct a; discriminate A.
Qed.
Lemma in_cp m te e a : In (te, (e, a)) (t_cp (as_t m)) <-> In e (l_els m) /\ a < 6 /\ te = 6 * e + a.
Proof.
  cbn [as_t t_cp]. rewrite in_flat_map. split.
  - intros (e' & I & J). apply in_map_iff in J as (a' & E & J). apply in_seq in J. injection E as <- <- <-. repeat split; [exact I|lia].
  - intros (I & A & ->). exists e. split; [exact I|]. apply in_map_iff. exists a. split; [reflexivity|apply in_seq; lia].
Qed.
Lemma NoDup_app' {A} (l l' : list A) : NoDup l -> NoDup l' -> (forall x, In x l -> ~ In x l') -> NoDup (l ++ l').
Proof.
  intros N N' D. induction N as [|x l X N IH]; [exact N'|]. cbn [app]. constructor.
  - rewrite in_app_iff. intros [I|I]; [exact (X I)|exact (D x (or_introl eq_refl) I)].
  - apply IH. intros y Y. apply D. right. exact Y.
Qed.
Lemma NoDup_flat {A B} (f : A -> list B) l : NoDup l -> (forall x, In x l -> NoDup (f x)) -> (forall x y z, In x l -> In y l -> In z (f x) -> In z (f y) -> x = y) -> NoDup (flat_map f l).
Proof.
  induction l as [|x l IH]; intros N F D; [constructor|]. cbn [flat_map]. inversion N as [|? ? X N']; subst.
  apply NoDup_app'; [apply F; left; reflexivity| |].
  - apply IH; [exact N'|intros; apply F; right; assumption|]. intros y z t Y Z. apply D; right; assumption.
  - intros z Zx Zl. apply in_flat_map in Zl as (y & Y & Zy). apply X. rewrite (D x y z); [exact Y|left; reflexivity|right; exact Y|exact Zx|exact Zy].
Qed.
Lemma fits_as m : lt_fits m -> fits (as_t m).
Proof.
  intros (N & L6 & D). split; [|split; [|split; [|split; [|split; [|split]]]]].
  - cbn [as_t t_map]. rewrite map_map. cbn [fst]. rewrite map_id. exact N.
  - assert (E : map fst (t_cp (as_t m)) = flat_map (fun e => map (fun a => 6 * e + a) (seq 0 6)) (l_els m)).
    { cbn [as_t t_cp]. clear. induction (l_els m) as [|e l IH]; [reflexivity|]. cbn [flat_map]. rewrite map_app, IH. reflexivity. }
    rewrite E. apply NoDup_flat; [exact N| |].
    + intros e _. cbn [map seq]. repeat constructor; cbn [In]; lia.
    + intros e e' z _ _ I J. apply in_map_iff in I as (a & <- & A). apply in_map_iff in J as (b & E' & B). apply in_seq in A, B. lia.
  - intros e tes I. cbn [as_t t_map] in I. apply in_map_iff in I as (e' & E & _). injection E as <- <-. reflexivity.
  - exact L6.
  - intros te e a O. apply as_t_side in O as (I & A & ->). exists e, a. split; [apply in_cp; auto|reflexivity].
  - intros te e a I. apply in_cp in I as (I & A & ->). exists (map (fun a => 6 * e + a) (seq 0 6)). split.
    + cbn [as_t t_map]. apply in_map_iff. exists e. auto.
    + do 6 (destruct a as [|a]; [reflexivity|]). lia.
  - exact D.
Qed.
Lemma all_some_forall2 {A B} (f : A -> option B) l : (forall x, In x l -> exists y, f x = Some y) -> exists r, all_some (map f l) = Some r /\ Forall2 (fun x y => f x = Some y) l r.
Proof.
  induction l as [|x l IH]; intros H; [exists []; split; [reflexivity|constructor]|].
  destruct (H x (or_introl eq_refl)) as (y & Y). destruct (IH (fun z Z => H z (or_intror Z))) as (r & E & F). exists (y :: r). cbn [map all_some]. rewrite Y, E.
  split; [reflexivity|]. constructor; assumption.
Qed.
Lemma keys_of {A B} (h : A -> option B) l E : Forall2 (fun a y => option_map (pair a) (h a) = Some y) l E -> map fst E = l.
Proof.
  induction 1 as [|a y l E Y F2 IH]; [reflexivity|]. cbn [map]. rewrite IH. f_equal. destruct (h a); [|discriminate Y]. injection Y as <-. reflexivity.
Qed.

Section Cochain.
  Context {K : CRing} (m : ltform) (F : lt_fits m).
  Lemma Ft : fits (as_t m).
  Proof. exact (fits_as m F). Qed.
  Lemma side_is a (v w : list K) : side_values m a v w <-> on_side_values (as_t m) a v w.
  Proof. reflexivity. Qed.

  Lemma esw_of_ok (v : list K) : length v = l_basis m ->
    exists E, esw_of m v = Some E /\ map fst E = seq 0 6 /\ forall a w, In (a, w) E -> side_values m a v w.
  Proof.
    intros L. unfold esw_of. destruct (l_dofs m) as [|G] eqn:D.
    - assert (H : forall a, In a (seq 0 6) -> exists y, option_map (pair a) (slice (l_onside m) v a) = Some y /\ fst y = a /\ side_values m a v (snd y)).
      { intros a I. apply in_seq in I. assert (F' := F); destruct F' as (_ & L6 & _). destruct (nth_error (l_onside m) a) as [n|] eqn:N; [|apply nth_error_None in N; lia].
        destruct (slice_ok (as_t m) Ft a n v D L N) as (w & W & V). exists (a, w). cbn [as_t t_onside] in W. rewrite W. auto. }
      destruct (all_some_forall2 (fun a => option_map (pair a) (slice (l_onside m) v a)) (seq 0 6)) as (E & HE & HF).
      { intros a I. destruct (H a I) as (y & Y & _). exists y. exact Y. }
      exists E. split; [exact HE|]. split.
      + exact (keys_of _ _ _ HF).
      + intros a w I. destruct (Forall2_in_r _ _ _ _ HF I) as (a' & A' & Y). destruct (H a' A') as (y & Y' & Ya & V). rewrite Y in Y'. injection Y' as <-. cbn [fst snd] in *. subst a'. exact V.
    - destruct (distribute_ok (as_t m) Ft G v D L) as (E & HE & V). exists E. split; [exact HE|].
      assert (KE : map fst E = seq 0 6).
      { assert (F' := F); destruct F' as (_ & _ & D'). rewrite D in D'. destruct D' as (K1 & _). rewrite <- K1. unfold VectorDistributor in HE.
        destruct (gathering_checker (map snd G)); [|discriminate HE]. destruct (_ =? _)%Z; [|discriminate HE].
        clear - HE. revert E HE. induction G as [|[k g] G IH]; intros E HE; cbn [map all_some] in HE; [injection HE as <-; reflexivity|].
        destruct (option_map _ _) as [y|] eqn:Y; [|discriminate HE]. destruct (all_some _) as [r|] eqn:R; [|discriminate HE]. injection HE as <-. cbn [map fst]. f_equal.
        - cbn [fst snd] in Y. destruct (np_take v g); [|discriminate Y]. injection Y as <-. reflexivity.
        - apply IH. reflexivity. }
      split; [exact KE|]. intros a w I. assert (A : a < 6). { assert (In a (seq 0 6)) by (rewrite <- KE; apply (in_map fst _ _ I)). apply in_seq in H. lia. }
      destruct (V a A) as (w' & W & V'). assert (NK : NoDup (map fst E)) by (rewrite KE; apply seq_NoDup).
      rewrite (in_at_key E a w NK I) in W. injection W as <-. exact V'.
  Qed.
  Lemma local_2_esw_ok (L : dict (list K)) : lt_shapes m L -> exists T, local_2_esw m L = Some T /\ map fst T = map fst L /\
    Forall2 (fun ev eE => fst eE = fst ev /\ esw_of m (snd ev) = Some (snd eE)) L T.
  Proof.
    intros H. unfold local_2_esw. destruct (all_some_forall2 (fun ev => option_map (pair (fst ev)) (esw_of m (snd ev))) L) as (T & HT & FT).
    { intros [e v] I. destruct (esw_of_ok v (H e v I)) as (E & HE & _). exists (e, E). cbn [fst snd]. rewrite HE. reflexivity. }
    exists T. split; [exact HT|].
    assert (F2 : Forall2 (fun ev eE => fst eE = fst ev /\ esw_of m (snd ev) = Some (snd eE)) L T).
    { clear - FT. induction FT as [|[e v] [e' E] L T Y FT IH]; constructor; [|exact IH]. cbn [fst snd] in *. destruct (esw_of m v); [|discriminate Y]. injection Y as <- <-. auto. }
    split; [|exact F2]. clear - F2. induction F2 as [|x y L T (A & _) F2 IH]; [reflexivity|]. cbn [map]. rewrite A, IH. reflexivity.
  Qed.
  Theorem get_esw_ok (L : dict (list K)) s : NoDup (map fst L) -> lt_shapes m L -> exists s1 T, set_local_lt m L s = LDone s1 /\
    get_esw m s1 = (LDone (mkls (Some L) (Some T) (ls_full s1)), Some T) /\ sides_of m L T.
  Proof.
    intros N H. destruct (local_2_esw_ok L H) as (T & HT & KT & F2). unfold set_local_lt.
    replace (forallb (fun kv => length (snd kv) =? l_basis m) L) with true
      by (symmetry; apply forallb_forall; intros [e v] I; apply Nat.eqb_eq, (H e v I)).
    eexists. exists T. split; [reflexivity|]. unfold get_esw. cbn [ls_esw ls_local ls_full]. rewrite HT. split; [reflexivity|]. split; [exact KT|].
    intros e v E I J. assert (NT : NoDup (map fst T)) by (rewrite KT; exact N).
    assert (Q : esw_of m v = Some E).
    { clear - F2 I J N NT KT. induction F2 as [|[e1 v1] [e2 E2] L T (A & B) F2 IH]; [destruct I|]. cbn [fst snd map] in *. subst e2. inversion N as [|? ? X N']; inversion NT as [|? ? X' NT']; subst.
      destruct I as [I|I], J as [J|J].
      - injection I as <- <-. injection J as <-. exact B.
      - injection I as <- <-. exfalso. apply X'. apply (in_map fst _ _ J).
      - injection J as <- <-. exfalso. apply X. apply (in_map fst _ _ I).
      - injection KT as KT. apply IH; assumption. }
    destruct (esw_of_ok v (H e v I)) as (E' & HE & KE & V). rewrite Q in HE. injection HE as <-. auto.
  Qed.
End Cochain.
