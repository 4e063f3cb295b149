(* Shifted values, maxima and nodes. *)
From Coq Require Import Reals List Lia Lra Arith ZArith Bool Permutation.
From Verif Require Import DiscModel DiscSpec DiscProofs2 ReconModel ReconSpec ReconProofs ReconProofs5 TreconModel ErrModel ErrSpec ErrProofs ErrProofs2.
Import ListNotations.
Open Scope R_scope.

Section Upon.
Context {X : Type}.
Implicit Types (e : eel X) (cores : list (list (eel X))).
Lemma base_shift a els k : (forall e, In e els -> shaped k e) -> length a = k ->
  base_of (map (shift_by a) els) = option_map (fun xb => (fst xb, map2 Rplus (snd xb) a)) (base_of els).
Proof.
  intros H L. destruct els as [|e els]; [reflexivity|]. cbn [map base_of]. destruct (H e (or_introl eq_refl)) as (K & V & _). unfold shift_by. cbn [xyz vals].
  destruct (xyz e) as [|x l]; [reflexivity|]. cbn [option_map fst snd]. f_equal. f_equal. rewrite <- K in L. clear K H. revert a L. induction (vals e) as [|v vs IH]; intros [|b a] L; try discriminate; [reflexivity|].
  cbn [map2 map]. rewrite IH; [|intros w I; apply V; right; exact I|cbn in L; lia]. f_equal. pose proof (V v (or_introl eq_refl)) as Lv. destruct v as [|y v]; [discriminate|]. reflexivity.
Qed.
Lemma first_shift a cores k : (forall e, In e (concat cores) -> shaped k e) -> length a = k ->
  first_base (map base_of (map (map (shift_by a)) cores)) = option_map (fun xb => (fst xb, map2 Rplus (snd xb) a)) (first_base (map base_of cores)).
Proof.
  intros H L. induction cores as [|c cores IH]; [reflexivity|]. cbn [map]. rewrite (base_shift a c k); [|intros e I; apply H; cbn; apply in_or_app; left; exact I|exact L].
  destruct (base_of c) as [[x b]|]; cbn [option_map first_base]; [reflexivity|]. apply IH. intros e I. apply H. cbn. apply in_or_app. right. exact I.
Qed.
Lemma base_len cores k x b : (forall e, In e (concat cores) -> shaped k e) -> first_base (map base_of cores) = Some (x, b) -> length b = k.
Proof.
  intros H. induction cores as [|c cores IH]; [discriminate|]. cbn [map first_base]. destruct (base_of c) as [[y d]|] eqn:E.
  - intros Q. injection Q as -> ->. destruct c as [|e c]; [discriminate|]. cbn [base_of] in E. destruct (xyz e); [discriminate|]. injection E as _ <-. rewrite map_length.
    apply (H e). left. reflexivity.
  - apply IH. intros e I. apply H. cbn. apply in_or_app. right. exact I.
Qed.
Lemma shift_shift a b e : length a = length (vals e) -> length b = length (vals e) -> shift_by b (shift_by a e) = shift_by (map2 Rplus a b) e.
Proof.
  unfold shift_by. cbn [xyz vals dets]. intros A B. f_equal. revert a b A B. induction (vals e) as [|v vs IH]; intros [|x a] [|y b] A B; try discriminate; [reflexivity|].
  cbn [map2]. rewrite IH by (cbn in *; lia). f_equal. rewrite map_map. apply map_ext. intros z. ring.
Qed.
Lemma map2_len {A B C} (f : A -> B -> C) l m k : length l = k -> length m = k -> length (map2 f l m) = k.
Proof. revert m k. induction l as [|a l IH]; intros [|b m] k <- M; try discriminate; [reflexivity|]. cbn in *. f_equal. apply IH; lia. Qed.
Lemma cancel (gs : list (X -> R)) x b a : length gs = length b -> length a = length b ->
  map2 Rplus a (map2 (fun g c => g x - c) gs (map2 Rplus b a)) = map2 (fun g c => g x - c) gs b.
Proof.
  revert b a. induction gs as [|g gs IH]; intros [|y b] [|z a] L M; try discriminate; [reflexivity|]. cbn [map2]. rewrite IH by (cbn in *; lia). f_equal. ring.
Qed.
Theorem upon_invariant (gs : list (X -> R)) n w fs cores a k : (forall e, In e (concat cores) -> shaped k e) -> length a = k -> length gs = k ->
  err_upon (Some gs) n w fs (map (map (shift_by a)) cores) = err_upon (Some gs) n w fs cores.
Proof.
  intros H L G. unfold err_upon. rewrite (first_shift a cores k H L). destruct (first_base (map base_of cores)) as [[x b]|] eqn:E; [|reflexivity]. cbn [option_map fst snd].
  pose proof (base_len cores k x b H E) as Lb. f_equal. rewrite map_map. apply map_ext_in. intros c Ic. rewrite map_map. apply map_ext_in. intros e Ie.
  assert (S : shaped k e) by (apply H; apply in_concat; exists c; split; assumption). destruct S as (K & _ & _).
  rewrite shift_shift; [|congruence|rewrite K; apply map2_len; [exact G|apply map2_len; assumption]]. rewrite cancel by congruence. reflexivity.
Qed.
Lemma list_ext {A} (l m : list A) : length l = length m -> (forall i b, nth_error m i = Some b -> nth_error l i = Some b) -> l = m.
Proof.
  revert m. induction l as [|x l IH]; intros [|y m] L H; try discriminate; [reflexivity|]. pose proof (H O y eq_refl) as E. injection E as ->. f_equal. apply IH; [cbn in L; lia|].
  intros i b E. exact (H (S i) b E).
Qed.
Lemma off_rows fs a e : length a = length fs -> off_by fs a e -> vals e = map2 (fun f c => map (fun x => f x + c) (xyz e)) fs a.
Proof.
  unfold off_by. generalize (vals e) (xyz e). intros vs pts. clear e. revert a vs. induction fs as [|f fs IH]; intros [|c a] [|v vs] L [K H]; try discriminate; [reflexivity|]. cbn [map2]. f_equal.
  - destruct (H O v f c eq_refl eq_refl eq_refl) as [Lv P]. apply list_ext; [rewrite map_length; exact Lv|]. intros i b E. rewrite nth_error_map in E. destruct (nth_error pts i) as [x|] eqn:Ex; [|discriminate].
    injection E as <-. exact (P i x Ex).
  - apply IH; [cbn in L; lia|]. split; [cbn in K; lia|]. intros m v' f' c' A B C. exact (H (S m) v' f' c' A B C).
Qed.
Lemma base_off fs a cores x b : length a = length fs -> (forall e, In e (concat cores) -> off_by fs a e) -> first_base (map base_of cores) = Some (x, b) -> b = map2 (fun f c => f x + c) fs a.
Proof.
  intros L H. induction cores as [|c cores IH]; [discriminate|]. cbn [map first_base]. destruct (base_of c) as [[y d]|] eqn:E.
  - intros Q. injection Q as -> ->. destruct c as [|e c]; [discriminate|]. cbn [base_of] in E. pose proof (off_rows fs a e L (H e (or_introl eq_refl))) as V.
    destruct (xyz e) as [|x0 l]; [discriminate|]. injection E as -> <-. rewrite V. clear. revert a. induction fs as [|f fs IH]; intros [|c a]; try reflexivity. cbn [map2 map]. rewrite IH. reflexivity.
  - apply IH. intros e I. apply H. cbn. apply in_or_app. right. exact I.
Qed.
Lemma off_exact fs a x e : length a = length fs -> off_by fs a e ->
  vals (shift_by (map2 (fun g c => g x - c) fs (map2 (fun f c => f x + c) fs a)) e) = map (fun f => map f (xyz e)) fs.
Proof.
  intros L O. unfold shift_by. cbn [vals]. rewrite (off_rows fs a e L O). clear O. revert a L. induction fs as [|f fs IH]; intros [|c a] L; try discriminate; [reflexivity|]. cbn [map2 map]. rewrite IH by (cbn in L; lia).
  f_equal. rewrite map_map. apply map_ext. intros y. ring.
Qed.
Lemma err_element_exact n w (fs : list (X -> R)) e : (0 < n)%nat -> vals e = map (fun f => map f (xyz e)) fs -> err_element n w fs e = 0.
Proof.
  intros N H. unfold err_element, diffs. rewrite H.
  assert (E : sum_axis0 (map2 (fun v f => map2 (fun a x => (a - f x) ^ n) v (xyz e)) (map (fun f => map f (xyz e)) fs) fs) (length (xyz e)) = map (fun _ => 0) (xyz e)).
  { rewrite <- (sum_axis_rows (map (fun _ _ => 0) fs) (xyz e)) || idtac.
    replace (map2 (fun v f => map2 (fun a x => (a - f x) ^ n) v (xyz e)) (map (fun f => map f (xyz e)) fs) fs) with (map (fun g => map g (xyz e)) (map (fun (_ : X -> R) (_ : X) => 0) fs)).
    - rewrite sum_axis_rows. apply map_ext. intros q. rewrite ReconProofs.rsum_map. apply ReconProofs.rsum_zero'. intros f _. reflexivity.
    - rewrite map_map. clear H. induction fs as [|f fs IH]; [reflexivity|]. cbn [map map2]. rewrite IH. f_equal. clear IH. induction (xyz e) as [|x l IH]; [reflexivity|]. cbn [map map2]. rewrite <- IH. f_equal.
      rewrite Rminus_diag_eq by reflexivity. symmetry. apply pow_i. exact N. }
  rewrite E. clear. revert w. generalize (dets e). induction (xyz e) as [|x l IH]; intros [|d ds] [|y w]; try reflexivity. unfold lsum in *. cbn [map map2 fold_right]. rewrite IH. ring.
Qed.
Lemma no_base cores : (forall e, In e (concat cores) -> xyz e <> []) -> first_base (map base_of cores) = None -> concat cores = [].
Proof.
  intros NE. induction cores as [|c cores IH]; [reflexivity|]. destruct c as [|e c]; cbn [map base_of first_base concat app].
  - apply IH. exact NE.
  - specialize (NE e (or_introl eq_refl)). destruct (xyz e); [congruence|discriminate].
Qed.
Theorem upon_exact n w fs cores a : (0 < n)%nat -> length a = length fs -> concat cores <> [] -> (forall e, In e (concat cores) -> off_by fs a e /\ xyz e <> []) ->
  err_upon (Some fs) n w fs cores = Some 0.
Proof.
  intros N L C H. unfold err_upon. destruct (first_base (map base_of cores)) as [[x b]|] eqn:E.
  - rewrite (base_off fs a cores x b L (fun e I => proj1 (H e I)) E). destruct (err_L_root n w fs (map (map (shift_by (map2 (fun g c => g x - c) fs (map2 (fun f c => f x + c) fs a)))) cores) N) as [R _].
    assert (Z : rsum (concat (map (map (shift_by (map2 (fun g c => g x - c) fs (map2 (fun f c => f x + c) fs a)))) cores)) (err_element n w fs) = 0).
    { rewrite concat_maps, ReconProofs.rsum_map. apply ReconProofs.rsum_zero'. intros e I. apply err_element_exact; [exact N|]. exact (off_exact fs a x e L (proj1 (H e I))). }
    rewrite Z in R. destruct (R (Rle_refl 0)) as (r & -> & _ & P). f_equal. destruct (Req_dec r 0) as [Y|Y]; [exact Y|]. exfalso. exact (pow_nonzero r n Y P).
  - exfalso. apply C. apply no_base; [intros e I; apply (H e I)|exact E].
Qed.
End Upon.

(* ---------- maxima ---------- *)
Lemma fold_max l a : (forall b, In b (a :: l) -> b <= fold_left Rmax l a) /\ In (fold_left Rmax l a) (a :: l).
Proof.
  revert a. induction l as [|b l IH]; intros a; cbn [fold_left].
  - split; [intros c [<-|[]]; lra|left; reflexivity].
  - destruct (IH (Rmax a b)) as [P Q]. split.
    + intros c [<-|[<-|I]]; [apply Rle_trans with (Rmax a b); [apply Rmax_l|apply P; left; reflexivity]|apply Rle_trans with (Rmax a b); [apply Rmax_r|apply P; left; reflexivity]|apply P; right; exact I].
    + destruct Q as [Q|Q]; [|right; right; exact Q]. rewrite <- Q. unfold Rmax. destruct (Rle_dec a b); [right; left; reflexivity|left; reflexivity].
Qed.
Lemma list_max_ok l : l <> [] -> exists g, list_max l = Some g /\ greatest (fun d => In d l) g.
Proof.
  destruct l as [|a l]; [intros []; reflexivity|]. intros _. exists (fold_left Rmax l a). split; [reflexivity|]. destruct (fold_max l a) as [P Q]. split; assumption.
Qed.
Lemma all_vals_map {A} (f : A -> option R) l : (forall a, In a l -> exists r, f a = Some r) -> exists rs, all_vals (map f l) = Some rs /\ Forall2 (fun a r => f a = Some r) l rs.
Proof.
  induction l as [|a l IH]; intros H; [exists []; split; [reflexivity|constructor]|]. destruct (H a (or_introl eq_refl)) as [r E]. destruct (IH (fun b I => H b (or_intror I))) as (rs & ER & F).
  exists (r :: rs). cbn [map all_vals]. rewrite E, ER. split; [reflexivity|constructor; assumption].
Qed.
Lemma forall2_in_l {A} (P : A -> R -> Prop) l rs a : Forall2 P l rs -> In a l -> exists r, In r rs /\ P a r.
Proof. induction 1 as [|b r l rs H F IH]; [intros []|]. intros [<-|I]; [exists r; split; [left; reflexivity|exact H]|]. destruct (IH I) as (r' & I' & P'). exists r'. split; [right|]; assumption. Qed.
Lemma forall2_in_r {A} (P : A -> R -> Prop) l rs r : Forall2 P l rs -> In r rs -> exists a, In a l /\ P a r.
Proof. induction 1 as [|b s l rs H F IH]; [intros []|]. intros [<-|I]; [exists b; split; [left; reflexivity|exact H]|]. destruct (IH I) as (r' & I' & P'). exists r'. split; [right|]; assumption. Qed.
Lemma max_of_map {A} (f : A -> option R) (P : A -> R -> Prop) l : l <> [] -> (forall a, In a l -> exists r, f a = Some r /\ greatest (P a) r) ->
  exists g, max_of (map f l) = Some g /\ greatest (fun d => exists a, In a l /\ P a d) g.
Proof.
  intros N H. destruct (all_vals_map f l (fun a I => let '(ex_intro _ r Q) := H a I in ex_intro _ r (proj1 Q))) as (rs & E & F). unfold max_of. rewrite E.
  assert (NR : rs <> []) by (intros ->; inversion F; congruence). destruct (list_max_ok rs NR) as (g & -> & I & M). exists g. split; [reflexivity|]. split.
  - destruct (forall2_in_r _ _ _ _ F I) as (a & Ia & Ea). exists a. split; [exact Ia|]. destruct (H a Ia) as (r & Er & [Pr _]). congruence.
  - intros d (a & Ia & Pd). destruct (forall2_in_l _ _ _ _ F Ia) as (r & Ir & Er). destruct (H a Ia) as (r' & Er' & [_ Mr]). rewrite Er in Er'. injection Er' as <-.
    apply Rle_trans with r; [apply Mr; exact Pd|apply M; exact Ir].
Qed.
Lemma map2_as_map {A B C} (f : A -> B -> C) l m : map2 f l m = map (fun ab => f (fst ab) (snd ab)) (combine l m).
Proof. revert m. induction l as [|a l IH]; intros [|b m]; try reflexivity. cbn. rewrite IH. reflexivity. Qed.
Lemma in_combine_nth {A B} (l : list A) (m : list B) a b : In (a, b) (combine l m) <-> exists i, nth_error l i = Some a /\ nth_error m i = Some b.
Proof.
  revert m. induction l as [|x l IH]; intros [|y m]; cbn [combine].
  - split; [intros []|intros (i & E & _); destruct i; discriminate].
  - split; [intros []|intros (i & E & _); destruct i; discriminate].
  - split; [intros []|intros (i & _ & E); destruct i; discriminate].
  - split.
    + intros [E|I]; [injection E as -> ->; exists O; split; reflexivity|]. apply IH in I as (i & P & Q). exists (S i). split; assumption.
    + intros (i & P & Q). destruct i as [|i]; [cbn in P, Q; left; congruence|right; apply IH; exists i; split; assumption].
Qed.
Section Inf.
Context {X : Type}.
Variables (k : nat) (fs : list (X -> R)).
Hypotheses (K : (0 < k)%nat) (L : length fs = k).
Lemma inf_element_ok (e : eel X) : shaped k e -> xyz e <> [] -> exists g, inf_element fs e = Some g /\ greatest (a_diff fs [e]) g.
Proof.
  intros (Lv & V & _) N. unfold inf_element. rewrite map2_as_map.
  destruct (max_of_map (fun ab => list_max (map2 (fun a x => Rabs (a - snd ab x)) (fst ab) (xyz e)))
    (fun ab d => exists i a x, nth_error (fst ab) i = Some a /\ nth_error (xyz e) i = Some x /\ d = Rabs (a - snd ab x)) (combine (vals e) fs)) as (g & E & [P M]).
  - destruct (vals e) as [|v vs]; [cbn in Lv; lia|]. destruct fs as [|f l]; [cbn in L; lia|]. discriminate.
  - intros [v f] I. cbn [fst snd]. assert (Iv := in_combine_l _ _ _ _ I). specialize (V v Iv).
    destruct (list_max_ok (map2 (fun a x => Rabs (a - f x)) v (xyz e))) as (g & E & [P M]).
    + destruct (xyz e) as [|x l]; [congruence|]. destruct v; discriminate.
    + exists g. split; [exact E|]. rewrite map2_as_map in P, M. split.
      * apply in_map_iff in P as ([a x] & <- & I2). apply in_combine_nth in I2 as (i & A & B). exists i, a, x. repeat split; assumption.
      * intros d (i & a & x & A & B & ->). apply M. apply in_map_iff. exists (a, x). split; [reflexivity|]. apply in_combine_nth. exists i. split; assumption.
  - exists g. split; [exact E|]. split.
    + destruct P as ([v f] & I & i & a & x & A & B & D). cbn [fst snd] in *. apply in_combine_nth in I as (m & A' & B'). exists e, m, i, v, f, a, x. repeat split; try assumption. left. reflexivity.
    + intros d (e' & m & i & v & f & a & x & [<-|[]] & A & B & C & D & E'). apply M. exists (v, f). split; [apply in_combine_nth; exists m; split; assumption|]. exists i, a, x. repeat split; assumption.
Qed.
Lemma fold_loc l a : fold_left (fun loc e => if Rlt_dec loc e then e else loc) l a = fold_left Rmax l a.
Proof. revert a. induction l as [|b l IH]; intros a; [reflexivity|]. cbn [fold_left]. rewrite IH. f_equal. unfold Rmax. destruct (Rlt_dec a b), (Rle_dec a b); lra. Qed.
Lemma inf_core_ok els : (forall e, In e els -> shaped k e /\ xyz e <> []) -> exists g, inf_core fs els = Some g /\ greatest (fun d => d = -1 \/ a_diff fs els d) g.
Proof.
  intros H. unfold inf_core. destruct (all_vals_map (inf_element fs) els) as (rs & -> & F).
  { intros e I. destruct (H e I) as [S N]. destruct (inf_element_ok e S N) as (g & E & _). exists g. exact E. }
  rewrite fold_loc. destruct (fold_max rs (-1)) as [P Q]. exists (fold_left Rmax rs (-1)). split; [reflexivity|]. split.
  - destruct Q as [Q|Q]; [left; symmetry; exact Q|right]. destruct (forall2_in_r _ _ _ _ F Q) as (e & I & E). destruct (H e I) as [S N]. destruct (inf_element_ok e S N) as (g & E' & [G _]).
    rewrite E in E'. injection E' as <-. destruct G as (e' & m & i & v & f & a & x & [<-|[]] & A & B). exists e, m, i, v, f, a, x. exact (conj I (conj A B)).
  - intros d [->|(e & m & i & v & f & a & x & I & A & B)]; [apply P; left; reflexivity|]. destruct (forall2_in_l _ _ _ _ F I) as (r & Ir & E). destruct (H e I) as [S N].
    destruct (inf_element_ok e S N) as (g & E' & [_ M]). rewrite E in E'. injection E' as <-. apply Rle_trans with r; [|apply P; right; exact Ir]. apply M. exists e, m, i, v, f, a, x. exact (conj (or_introl eq_refl) (conj A B)).
Qed.
Theorem err_inf_ok cores : concat cores <> [] -> (forall e, In e (concat cores) -> shaped k e /\ xyz e <> []) ->
  exists g, err_inf fs cores = Some g /\ greatest (a_diff fs (concat cores)) g.
Proof.
  intros NE H. destruct (max_of_map (inf_core fs) (fun els d => d = -1 \/ a_diff fs els d) cores) as (g & E & [P M]).
  - intros ->. apply NE. reflexivity.
  - intros els I. apply inf_core_ok. intros e Ie. apply H. apply in_concat. exists els. split; assumption.
  - unfold err_inf. rewrite E.
    assert (ex : exists d, a_diff fs (concat cores) d).
    { destruct (concat cores) as [|e l]; [congruence|]. destruct (H e (or_introl eq_refl)) as [S N]. destruct (inf_element_ok e S N) as (g' & _ & [(e' & m & i & v & f & a & x & [<-|[]] & A) _]).
      exists g', e, m, i, v, f, a, x. split; [left; reflexivity|exact A]. }
    assert (up : forall d, a_diff fs (concat cores) d -> d <= g).
    { intros d (e & m & i & v & f & a & x & I & A). apply in_concat in I as (els & Iels & Ie). apply M. exists els. split; [exact Iels|]. right. exists e, m, i, v, f, a, x. split; assumption. }
    assert (G0 : 0 <= g). { destruct ex as [d D]. apply Rle_trans with d; [|apply up; exact D]. destruct D as (e & m & i & v & f & a & x & _ & _ & _ & _ & _ & ->). apply Rabs_pos. }
    destruct (Rle_dec 0 g); [|lra]. exists g. split; [reflexivity|]. split; [|exact up].
    destruct P as (els & I & [Q|(e & m & i & v & f & a & x & Ie & A)]); [lra|]. exists e, m, i, v, f, a, x. split; [|exact A]. apply in_concat. exists els. split; assumption.
Qed.
Theorem err_inf_none cores : concat cores = [] -> err_inf fs cores = None.
Proof.
  intros E. unfold err_inf. destruct cores as [|c cores]; [reflexivity|].
  assert (H : forall l, concat l = [] -> all_vals (map (inf_core fs) l) = Some (map (fun _ => -1) l)).
  { clear. intros l. induction l as [|c l IH]; intros E; [reflexivity|]. cbn [concat] in E. apply app_eq_nil in E as [-> E]. cbn [map all_vals inf_core fold_left]. rewrite (IH E). reflexivity. }
  unfold max_of. rewrite (H _ E). cbn [map list_max].
  assert (F : forall l, fold_left Rmax (map (fun _ : list (eel X) => -1) l) (-1) = -1) by (induction l as [|x l IH]; [reflexivity|]; cbn [map fold_left]; rewrite Rmax_left by lra; exact IH).
  rewrite F. destruct (Rle_dec 0 (-1)); [lra|reflexivity].
Qed.
End Inf.
