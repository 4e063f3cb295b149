From Coq Require Import List Arith ZArith Bool Lia.
From Verif Require Import Prelude RingSum TriModel TriSpec.
Import ListNotations.

(* ---------- arithmetic of column-major numbering ---------- *)
Lemma lin_inj a i j i' j' : i < a -> i' < a -> i + j * a = i' + j' * a -> i = i' /\ j = j'.
Proof.
  intros H H' E. assert (j = j') as ->; [|lia].
  destruct (Nat.lt_trichotomy j j') as [L|[L|L]]; [|exact L|]; exfalso.
  - assert (j' * a >= (j + 1) * a) by (apply Nat.mul_le_mono_r; lia). lia.
  - assert (j * a >= (j' + 1) * a) by (apply Nat.mul_le_mono_r; lia). lia.
Qed.
Lemma lin_lt a b i j : i < a -> j < b -> i + j * a < b * a.
Proof. intros H H'. assert ((j + 1) * a <= b * a) by (apply Nat.mul_le_mono_r; lia). lia. Qed.
Lemma lin_split a b k : k < b * a -> exists i j, i < a /\ j < b /\ k = i + j * a.
Proof.
  intros H. destruct (Nat.eq_dec a 0) as [->|Ha]; [lia|].
  exists (k mod a), (k / a). split; [apply Nat.mod_upper_bound; exact Ha|]. split.
  - apply Nat.div_lt_upper_bound; lia.
  - pose proof (Nat.div_mod k a Ha). lia.
Qed.

(* ---------- local numbering ---------- *)
Lemma dofn_at p i j : tln0 p i j = dofn p (node_at i j).
Proof. destruct j; reflexivity. Qed.
Lemma dofn_Nd p i j : tln0 p i (S j) = Z.of_nat (1 + (i + j * (p + 1))).
Proof. unfold tln0, aF. cbn [Nat.eqb]. lia. Qed.
Lemma numbers_node p : numbers (node_ok p) (dofn p) (tnb0 p).
Proof.
  unfold tnb0. split; [|split].
  - intros [|i j]; cbn [node_ok dofn]; intros H; [unfold tln0; cbn; lia|].
    destruct j as [|j]; [lia|]. rewrite dofn_Nd.
    pose proof (lin_lt (p + 1) p i j ltac:(lia) ltac:(lia)). lia.
  - intros [|i j] [|i' j']; cbn [node_ok dofn]; intros H H' E; [reflexivity| | |].
    + destruct j' as [|j']; [lia|]. rewrite dofn_Nd in E. unfold tln0 in E. cbn in E. lia.
    + destruct j as [|j]; [lia|]. rewrite dofn_Nd in E. unfold tln0 in E. cbn in E. lia.
    + destruct j as [|j]; [lia|]. destruct j' as [|j']; [lia|]. rewrite !dofn_Nd in E.
      destruct (lin_inj (p + 1) i j i' j') as [-> ->]; [lia|lia|lia|reflexivity].
  - intros k H. destruct k as [|k]; [exists Sing; split; [exact I|reflexivity]|].
    destruct (lin_split (p + 1) p k ltac:(lia)) as (i & j & Hi & Hj & ->).
    exists (Nd i (S j)). split; [cbn; lia|]. cbn [dofn]. rewrite dofn_Nd. lia.
Qed.
Lemma dofe_Dy o p i j : dofe o p (Dy i j) = Z.of_nat (match o with Outer => 0 | Inner => p * p end + (i + j * (p + 1))).
Proof. cbn [dofe]. unfold tln_dy, aF. destruct o; lia. Qed.
Lemma dofe_Dx o p i j : dofe o p (Dx i (S j)) = Z.of_nat (match o with Outer => p * (p + 1) | Inner => 0 end + (i + j * p)).
Proof. cbn [dofe]. unfold tln_dx, aF. cbn [Nat.eqb]. destruct o; lia. Qed.
Lemma numbers_edge o p : numbers (edge_ok p) (dofe o p) (tnb1 p).
Proof.
  unfold tnb1. split; [|split].
  - intros [i j|i j]; cbn [edge_ok]; intros H.
    + destruct j as [|j]; [lia|]. rewrite dofe_Dx. pose proof (lin_lt p p i j ltac:(lia) ltac:(lia)). destruct o; lia.
    + rewrite dofe_Dy. pose proof (lin_lt (p + 1) p i j ltac:(lia) ltac:(lia)). destruct o; lia.
  - intros [i j|i j] [i' j'|i' j']; cbn [edge_ok]; intros H H' E.
    + destruct j as [|j]; [lia|]. destruct j' as [|j']; [lia|]. rewrite !dofe_Dx in E.
      destruct (lin_inj p i j i' j') as [-> ->]; [lia|lia|lia|reflexivity].
    + destruct j as [|j]; [lia|]. rewrite dofe_Dx, dofe_Dy in E.
      pose proof (lin_lt p p i j ltac:(lia) ltac:(lia)). pose proof (lin_lt (p + 1) p i' j' ltac:(lia) ltac:(lia)).
      destruct o; lia.
    + destruct j' as [|j']; [lia|]. rewrite dofe_Dx, dofe_Dy in E.
      pose proof (lin_lt p p i' j' ltac:(lia) ltac:(lia)). pose proof (lin_lt (p + 1) p i j ltac:(lia) ltac:(lia)).
      destruct o; lia.
    + rewrite !dofe_Dy in E. destruct (lin_inj (p + 1) i j i' j') as [-> ->]; [lia|lia|lia|reflexivity].
  - intros k H. destruct o.
    + destruct (Nat.lt_ge_cases k (p * (p + 1))) as [L|L].
      * destruct (lin_split (p + 1) p k L) as (i & j & Hi & Hj & ->).
        exists (Dy i j). split; [cbn; lia|]. rewrite dofe_Dy. reflexivity.
      * destruct (lin_split p p (k - p * (p + 1)) ltac:(lia)) as (i & j & Hi & Hj & E).
        exists (Dx i (S j)). split; [cbn; lia|]. rewrite dofe_Dx. lia.
    + destruct (Nat.lt_ge_cases k (p * p)) as [L|L].
      * destruct (lin_split p p k L) as (i & j & Hi & Hj & ->).
        exists (Dx i (S j)). split; [cbn; lia|]. rewrite dofe_Dx. reflexivity.
      * destruct (lin_split (p + 1) p (k - p * p) ltac:(lia)) as (i & j & Hi & Hj & E).
        exists (Dy i j). split; [cbn; lia|]. rewrite dofe_Dy. lia.
Qed.
Lemma numbers_face p : numbers (fun ij : nat * nat => fst ij < p /\ snd ij < p) (fun ij => tln2 p (fst ij) (snd ij)) (tnb2 p).
Proof.
  unfold tnb2, tln2, aF. split; [|split].
  - intros [i j]; cbn [fst snd]; intros H. pose proof (lin_lt p p i j ltac:(lia) ltac:(lia)). lia.
  - intros [i j] [i' j']; cbn [fst snd]; intros H H' E.
    destruct (lin_inj p i j i' j') as [-> ->]; [lia|lia|lia|reflexivity].
  - intros k H. destruct (lin_split p p k H) as (i & j & Hi & Hj & ->). exists (i, j). cbn [fst snd]. split; [lia|]. lia.
Qed.
Lemma local_numbering_ok p o :
  (forall i j i' j', i <= p -> j <= p -> i' <= p -> j' <= p ->
     (tln0 p i j = tln0 p i' j' <-> node_at i j = node_at i' j')) /\
  numbers (node_ok p) (fun n => match n with Sing => tln0 p 0 0 | Nd i j => tln0 p i j end) (tnb0 p) /\
  numbers (edge_ok p) (fun e => match e with Dx i j => tln_dx o p i j | Dy i j => tln_dy o p i j end) (tnb1 p) /\
  (forall i, tln_dx o p i 0 = (-1)%Z) /\
  numbers (fun ij : nat * nat => fst ij < p /\ snd ij < p) (fun ij => tln2 p (fst ij) (snd ij)) (tnb2 p).
Proof.
  split; [|split; [exact (numbers_node p)|split; [exact (numbers_edge o p)|split; [reflexivity|exact (numbers_face p)]]]].
  intros i j i' j' H1 H2 H3 H4. rewrite !dofn_at. split; [|congruence].
  apply (numbers_node p); destruct j, j'; cbn; lia.
Qed.

(* ---------- matrices filled by assignments ---------- *)
Definition hits (nr nc r c : nat) (w : Z * Z * Z) : Prop :=
  match w with (r', c', _) => wrap nr r' = Z.of_nat r /\ wrap nc c' = Z.of_nat c end.
Lemma filled_from nr nc ws r c v x :
  (forall w, In w ws -> hits nr nc r c w -> snd w = v) -> x = v ->
  fold_left (fun x w => match w with (r', c', v) =>
    if ((wrap nr r' =? Z.of_nat r) && (wrap nc c' =? Z.of_nat c))%Z then v else x end) ws x = v.
Proof.
  revert x. induction ws as [|[[r' c'] u] ws IH]; cbn [fold_left]; intros x H E; [exact E|].
  apply IH; [intros w Hw; apply H; right; exact Hw|].
  destruct ((wrap nr r' =? Z.of_nat r) && (wrap nc c' =? Z.of_nat c))%Z eqn:B; [|exact E].
  apply (H (r', c', u)); [left; reflexivity|]. cbn. apply andb_prop in B. lia.
Qed.
Lemma filled_zero nr nc ws r c :
  (forall w, In w ws -> ~ hits nr nc r c w) -> filled nr nc ws r c = 0%Z.
Proof. intros H. apply filled_from; [|reflexivity]. intros w Hw Hh. destruct (H w Hw Hh). Qed.
Lemma filled_one nr nc ws r c v :
  (forall w, In w ws -> hits nr nc r c w -> snd w = v) ->
  (exists w, In w ws /\ hits nr nc r c w) -> filled nr nc ws r c = v.
Proof.
  intros H (w & Hw & Hh). unfold filled. apply in_split in Hw. destruct Hw as (l1 & l2 & ->).
  rewrite fold_left_app. cbn [fold_left]. apply filled_from.
  - intros w' Hw'. apply H. apply in_or_app. right. right. exact Hw'.
  - destruct w as [[r' c'] u]. cbn in Hh. destruct Hh as [E1 E2].
    rewrite E1, E2, !Z.eqb_refl. cbn. apply (H (r', c', u)); [apply in_or_app; right; left; reflexivity|].
    cbn. auto.
Qed.
Lemma wrap_nonneg n k : (0 <= k)%Z -> wrap n k = k.
Proof. intros H. unfold wrap. destruct (k <? 0)%Z eqn:E; [lia|reflexivity]. Qed.
Lemma in_grid p q i j : In (i, j) (grid p q) <-> i < p /\ j < q.
Proof.
  unfold grid. rewrite in_flat_map. split.
  - intros (y & Hy & H). apply in_map_iff in H. destruct H as (x & E & Hx). inversion E; subst.
    apply in_seq in Hy, Hx. lia.
  - intros [H1 H2]. exists j. split; [apply in_seq; lia|]. apply in_map_iff. exists i. split; [reflexivity|apply in_seq; lia].
Qed.

(* ---------- E0 ---------- *)
Definition sgn0 (o : orient) (e : tedge) : Z := match o, e with Outer, Dx _ _ => (-1)%Z | _, _ => 1%Z end.
Lemma in_w0 o p w :
  In w (match o with Outer => w_dy Outer p ++ w_dx Outer p | Inner => w_dx Inner p ++ w_dy Inner p end) <->
  exists e, edge_ok p e /\ (w = (dofe o p e, dofn p (start e), (- sgn0 o e)%Z) \/ w = (dofe o p e, dofn p (stop e), sgn0 o e)).
Proof.
  assert (Hy : In w (w_dy o p) <-> exists i j, edge_ok p (Dy i j) /\
     (w = (dofe o p (Dy i j), dofn p (node_at i j), (-1)%Z) \/ w = (dofe o p (Dy i j), dofn p (node_at i (j + 1)), 1%Z))).
  { unfold w_dy. rewrite in_flat_map. split.
    - intros ([i j] & Hg & H). apply in_grid in Hg.
      pose proof (proj1 (numbers_edge o p) (Dy i j) ltac:(cbn; lia)) as Hr. cbn [dofe] in Hr.
      destruct (0 <=? tln_dy o p i j)%Z eqn:B; [|lia]. exists i, j. split; [cbn; lia|]. rewrite <- !dofn_at.
      destruct H as [<-|[<-|[]]]; auto.
    - intros (i & j & Hok & H). cbn in Hok. exists (i, j). split; [apply in_grid; lia|].
      pose proof (proj1 (numbers_edge o p) (Dy i j) ltac:(cbn; lia)) as Hr. cbn [dofe] in Hr.
      destruct (0 <=? tln_dy o p i j)%Z eqn:B; [|lia]. rewrite <- !dofn_at in H. cbn. destruct H as [->| ->]; auto. }
  assert (Hx : In w (w_dx o p) <-> exists i j, edge_ok p (Dx i j) /\
     (w = (dofe o p (Dx i j), dofn p (node_at i j), (- sgn0 o (Dx 0 0))%Z) \/
      w = (dofe o p (Dx i j), dofn p (node_at (i + 1) j), sgn0 o (Dx 0 0)))).
  { unfold w_dx. rewrite in_flat_map. split.
    - intros ([i j] & Hg & H). apply in_grid in Hg.
      destruct (0 <=? tln_dx o p i j)%Z eqn:B; [|destruct H].
      assert (1 <= j) as Hj by (destruct j; [unfold tln_dx in B; cbn in B; discriminate|lia]).
      exists i, j. split; [cbn; lia|]. rewrite <- !dofn_at.
      destruct o; destruct H as [<-|[<-|[]]]; auto.
    - intros (i & j & Hok & H). cbn in Hok. exists (i, j). split; [apply in_grid; lia|].
      pose proof (proj1 (numbers_edge o p) (Dx i j) ltac:(cbn; lia)) as Hr. cbn [dofe] in Hr.
      destruct (0 <=? tln_dx o p i j)%Z eqn:B; [|lia]. rewrite <- !dofn_at in H.
      destruct o; destruct H as [->| ->]; cbn; auto. }
  assert (A : In w (w_dy o p) \/ In w (w_dx o p) <->
    exists e, edge_ok p e /\ (w = (dofe o p e, dofn p (start e), (- sgn0 o e)%Z) \/ w = (dofe o p e, dofn p (stop e), sgn0 o e))).
  { rewrite Hy, Hx. split.
    - intros [(i & j & Hok & H)|(i & j & Hok & H)].
      + exists (Dy i j). split; [exact Hok|]. destruct o; exact H.
      + exists (Dx i j). split; [exact Hok|]. destruct o; exact H.
    - intros ([i j|i j] & Hok & H); [right|left]; exists i, j; (split; [exact Hok|]); destruct o; exact H. }
  destruct o; rewrite in_app_iff; [exact A|]. rewrite or_comm. exact A.
Qed.
Lemma start_ok p e : edge_ok p e -> node_ok p (start e) /\ node_ok p (stop e) /\ start e <> stop e.
Proof.
  destruct e as [i j|i j]; cbn [edge_ok start stop]; intros H.
  - destruct j; [lia|]. cbn. repeat split; try lia. intros E. inversion E. lia.
  - rewrite Nat.add_1_r. destruct j; cbn; repeat split; try lia; intros E; inversion E. lia.
Qed.
Lemma tnode_eqb_eq a b : tnode_eqb a b = true <-> a = b.
Proof.
  destruct a, b; cbn; split; intros H; try discriminate; try reflexivity.
  - apply andb_prop in H. destruct H as [H1 H2]. apply Nat.eqb_eq in H1, H2. congruence.
  - inversion H; subst. rewrite !Nat.eqb_refl. reflexivity.
Qed.
Lemma tedge_eqb_eq a b : tedge_eqb a b = true <-> a = b.
Proof.
  destruct a, b; cbn; split; intros H; try discriminate.
  all: first [apply andb_prop in H; destruct H as [H1 H2]; apply Nat.eqb_eq in H1, H2; congruence
             |inversion H; subst; rewrite !Nat.eqb_refl; reflexivity].
Qed.
Lemma dirac_node a b : (a = b /\ dirac (tnode_eqb a b) = 1%Z) \/ (a <> b /\ dirac (tnode_eqb a b) = 0%Z).
Proof.
  destruct (tnode_eqb a b) eqn:E; [left; split; [apply tnode_eqb_eq; exact E|reflexivity]|right; split; [|reflexivity]].
  intros ->. rewrite (proj2 (tnode_eqb_eq b b) eq_refl) in E. discriminate.
Qed.
Lemma dirac_edge a b : (a = b /\ dirac (tedge_eqb a b) = 1%Z) \/ (a <> b /\ dirac (tedge_eqb a b) = 0%Z).
Proof.
  destruct (tedge_eqb a b) eqn:E; [left; split; [apply tedge_eqb_eq; exact E|reflexivity]|right; split; [|reflexivity]].
  intros ->. rewrite (proj2 (tedge_eqb_eq b b) eq_refl) in E. discriminate.
Qed.
Lemma E0_ok o p e n : edge_ok p e -> node_ok p n ->
  tE0 o p (Z.to_nat (dofe o p e)) (Z.to_nat (dofn p n)) = d_node o e n.
Proof.
  intros He Hn. destruct (start_ok p e He) as (Hs & Ht & Hd).
  destruct (numbers_edge o p) as (RE & IE & _). destruct (numbers_node p) as (RN & IN & _).
  pose proof (RE e He) as He'. pose proof (RN n Hn) as Hn'.
  assert (Hh : forall e' n' v, edge_ok p e' -> node_ok p n' ->
    (hits (tnb1 p) (tnb0 p) (Z.to_nat (dofe o p e)) (Z.to_nat (dofn p n)) (dofe o p e', dofn p n', v) <-> e' = e /\ n' = n)).
  { intros e' n' v H1 H2. unfold hits. rewrite !wrap_nonneg by (first [apply RE|apply RN]; assumption).
    rewrite !Z2Nat.id by lia. split; [|intros [-> ->]; auto]. intros [E1 E2]. auto. }
  unfold tE0, d_node. fold (sgn0 o e).
  destruct (dirac_node n (stop e)) as [[E1 D1]|[E1 D1]]; destruct (dirac_node n (start e)) as [[E2 D2]|[E2 D2]]; rewrite D1, D2.
  - congruence.
  - replace (sgn0 o e * (1 - 0))%Z with (sgn0 o e) by lia. apply filled_one.
    + intros w Hw H. apply in_w0 in Hw. destruct Hw as (e' & Hok & [->| ->]).
      * apply Hh in H; [|exact Hok|apply start_ok; exact Hok]. destruct H as [-> E]. congruence.
      * apply Hh in H; [|exact Hok|apply start_ok; exact Hok]. destruct H as [-> E]. reflexivity.
    + exists (dofe o p e, dofn p (stop e), sgn0 o e). split; [apply in_w0; exists e; auto|]. apply Hh; auto.
  - replace (sgn0 o e * (0 - 1))%Z with (- sgn0 o e)%Z by lia. apply filled_one.
    + intros w Hw H. apply in_w0 in Hw. destruct Hw as (e' & Hok & [->| ->]).
      * apply Hh in H; [|exact Hok|apply start_ok; exact Hok]. destruct H as [-> E]. reflexivity.
      * apply Hh in H; [|exact Hok|apply start_ok; exact Hok]. destruct H as [-> E]. congruence.
    + exists (dofe o p e, dofn p (start e), (- sgn0 o e)%Z). split; [apply in_w0; exists e; auto|]. apply Hh; auto.
  - replace (sgn0 o e * (0 - 0))%Z with 0%Z by lia. apply filled_zero.
    intros w Hw H. apply in_w0 in Hw. destruct Hw as (e' & Hok & [->| ->]).
    + apply Hh in H; [|exact Hok|apply start_ok; exact Hok]. destruct H as [-> E]. congruence.
    + apply Hh in H; [|exact Hok|apply start_ok; exact Hok]. destruct H as [-> E]. congruence.
Qed.

(* ---------- E1 ---------- *)
Definition sgn1 (o : orient) : Z := match o with Outer => 1%Z | Inner => (-1)%Z end.
Definition around (o : orient) (i j : nat) : list (tedge * Z) :=
  [(Dx i j, (- sgn1 o)%Z); (Dx i (j + 1), sgn1 o); (Dy i j, (-1)%Z); (Dy (i + 1) j, 1%Z)].
Lemma E1_ok o p i j e : i < p -> j < p -> edge_ok p e ->
  tE1 o p (Z.to_nat (tln2 p i j)) (Z.to_nat (dofe o p e)) = d_edge o i j e.
Proof.
  intros Hi Hj He. destruct (numbers_edge o p) as (RE & IE & _). destruct (numbers_face p) as (RF & IF & _).
  pose proof (RE e He) as He'. pose proof (RF (i, j) ltac:(cbn; lia)) as Hf. cbn [fst snd] in Hf.
  set (ws := flat_map (fun ij => match ij with (i, j) =>
    let row := tln2 p i j in
    let Left := tln_dx o p i j in
    (if (0 <=? Left)%Z then [(row, Left, match o with Outer => (-1)%Z | Inner => 1%Z end)] else []) ++
    [(row, tln_dx o p i (j + 1), match o with Outer => 1%Z | Inner => (-1)%Z end);
     (row, tln_dy o p i j, (-1)%Z);
     (row, tln_dy o p (i + 1) j, 1%Z)] end) (grid p p)).
  change (tE1 o p) with (filled (tnb2 p) (tnb1 p) ws).
  assert (Hin : forall w, In w ws <-> exists i' j' x, i' < p /\ j' < p /\ edge_ok p (fst x) /\
     In x (around o i' j') /\ w = (tln2 p i' j', dofe o p (fst x), snd x)).
  { intros w. unfold ws. rewrite in_flat_map. split.
    - intros ([i' j'] & Hg & H). apply in_grid in Hg. destruct Hg as [Hi' Hj'].
      apply in_app_or in H. destruct H as [H|H].
      + destruct (0 <=? tln_dx o p i' j')%Z eqn:B; [|destruct H]. destruct H as [<-|[]].
        assert (1 <= j') by (destruct j'; [unfold tln_dx in B; cbn in B; discriminate|lia]).
        exists i', j', (Dx i' j', (- sgn1 o)%Z). split; [exact Hi'|]. split; [exact Hj'|]. split; [cbn; lia|].
        split; [left; reflexivity|]. cbn. destruct o; reflexivity.
      + destruct H as [<-|[<-|[<-|[]]]].
        * exists i', j', (Dx i' (j' + 1), sgn1 o). split; [exact Hi'|]. split; [exact Hj'|]. split; [cbn; lia|].
          split; [right; left; reflexivity|]. cbn. destruct o; reflexivity.
        * exists i', j', (Dy i' j', (-1)%Z). split; [exact Hi'|]. split; [exact Hj'|]. split; [cbn; lia|].
          split; [do 2 right; left; reflexivity|]. reflexivity.
        * exists i', j', (Dy (i' + 1) j', 1%Z). split; [exact Hi'|]. split; [exact Hj'|]. split; [cbn; lia|].
          split; [do 3 right; left; reflexivity|]. reflexivity.
    - intros (i' & j' & x & Hi' & Hj' & Hok & Hx & ->). exists (i', j'). split; [apply in_grid; lia|].
      apply in_or_app. destruct Hx as [<-|[<-|[<-|[<-|[]]]]]; cbn [fst snd] in *.
      + left. pose proof (RE _ Hok) as Hr. cbn [dofe] in *.
        destruct (0 <=? tln_dx o p i' j')%Z eqn:B; [|lia]. left. destruct o; reflexivity.
      + right. left. destruct o; reflexivity.
      + right. right. left. reflexivity.
      + right. right. right. left. reflexivity. }
  assert (Hh : forall i' j' e' v, i' < p -> j' < p -> edge_ok p e' ->
    (hits (tnb2 p) (tnb1 p) (Z.to_nat (tln2 p i j)) (Z.to_nat (dofe o p e)) (tln2 p i' j', dofe o p e', v) <->
     i' = i /\ j' = j /\ e' = e)).
  { intros i' j' e' v H1 H2 H3. unfold hits.
    pose proof (RF (i', j') ltac:(cbn; lia)) as Hf'. cbn [fst snd] in Hf'. pose proof (RE e' H3).
    rewrite !wrap_nonneg by lia. rewrite !Z2Nat.id by lia. split; [|intros (-> & -> & ->); auto].
    intros [E1 E2]. specialize (IF (i', j') (i, j) ltac:(cbn; lia) ltac:(cbn; lia) E1). inversion IF. auto. }
  assert (Hv : forall x, In x (around o i j) -> fst x = e -> snd x = d_edge o i j e).
  { intros x Hx <-. unfold d_edge. fold (sgn1 o).
    assert (j + 1 =? j = false) as N1 by (apply Nat.eqb_neq; lia).
    assert (j =? j + 1 = false) as N2 by (apply Nat.eqb_neq; lia).
    assert (i + 1 =? i = false) as N3 by (apply Nat.eqb_neq; lia).
    assert (i =? i + 1 = false) as N4 by (apply Nat.eqb_neq; lia).
    destruct Hx as [<-|[<-|[<-|[<-|[]]]]]; cbn [fst snd tedge_eqb dirac]; rewrite ?Nat.eqb_refl, ?N1, ?N2, ?N3, ?N4; cbn [andb dirac]; lia. }
  destruct (existsb (fun x => tedge_eqb (fst x) e) (around o i j)) eqn:B.
  - apply existsb_exists in B. destruct B as (x & Hx & E). apply tedge_eqb_eq in E. apply filled_one.
    + intros w Hw H. apply Hin in Hw. destruct Hw as (i' & j' & x' & Hi' & Hj' & Hok & Hx' & ->).
      apply Hh in H; [|exact Hi'|exact Hj'|exact Hok]. destruct H as (-> & -> & E'). cbn [snd]. apply Hv; assumption.
    + exists (tln2 p i j, dofe o p (fst x), snd x). split.
      * apply Hin. exists i, j, x. split; [exact Hi|]. split; [exact Hj|]. rewrite E. auto.
      * apply Hh; [exact Hi|exact Hj|rewrite E; exact He|auto].
  - assert (N : forall x, In x (around o i j) -> fst x <> e).
    { intros x Hx E. apply Bool.not_true_iff_false in B. apply B. apply existsb_exists. exists x.
      split; [exact Hx|apply tedge_eqb_eq; exact E]. }
    transitivity 0%Z.
    + apply filled_zero. intros w Hw H. apply Hin in Hw. destruct Hw as (i' & j' & x' & Hi' & Hj' & Hok & Hx' & ->).
      apply Hh in H; [|exact Hi'|exact Hj'|exact Hok]. destruct H as (-> & -> & E'). exact (N x' Hx' E').
    + unfold d_edge.
      destruct (dirac_edge e (Dx i (j + 1))) as [[E _]|[_ ->]];
        [exfalso; apply (N (Dx i (j + 1), sgn1 o)); [right; left; reflexivity|auto]|].
      destruct (dirac_edge e (Dx i j)) as [[E _]|[_ ->]];
        [exfalso; apply (N (Dx i j, (- sgn1 o)%Z)); [left; reflexivity|auto]|].
      destruct (dirac_edge e (Dy (i + 1) j)) as [[E _]|[_ ->]];
        [exfalso; apply (N (Dy (i + 1) j, 1%Z)); [do 3 right; left; reflexivity|auto]|].
      destruct (dirac_edge e (Dy i j)) as [[E _]|[_ ->]];
        [exfalso; apply (N (Dy i j, (-1)%Z)); [do 2 right; left; reflexivity|auto]|].
      destruct o; reflexivity.
Qed.

(* ---------- rows as sums ---------- *)
Definition zsum (n : nat) (f : nat -> Z) : Z := @bsum ZR nat (seq 0 n) f.
Lemma zsum_ext n f g : (forall k, k < n -> f k = g k) -> zsum n f = zsum n g.
Proof. intros H. apply (bsum_ext ZR). intros a Ha. apply in_seq in Ha. apply H. lia. Qed.
Lemma zsum_pick n x (f : nat -> Z) : x < n -> zsum n (fun k => (dirac (Nat.eqb k x) * f k)%Z) = f x.
Proof.
  intros H. rewrite <- (bsum_pick_seq ZR n x f H). apply zsum_ext. intros k _. unfold dirac.
  destruct (k =? x); [apply Z.mul_1_l|reflexivity].
Qed.
Lemma zsum_plus n f g : zsum n (fun k => (f k + g k)%Z) = (zsum n f + zsum n g)%Z.
Proof. apply (bsum_plus ZR). Qed.
Lemma zsum_minus n f g : zsum n (fun k => (f k - g k)%Z) = (zsum n f - zsum n g)%Z.
Proof. apply (bsum_minus ZR). Qed.
Lemma zsum_mul n c f : zsum n (fun k => (c * f k)%Z) = (c * zsum n f)%Z.
Proof. apply (bsum_mul_l ZR). Qed.
Lemma dirac_dof {A} (ok : A -> Prop) f n (eqb : A -> A -> bool) a b :
  numbers ok f n -> (forall x y, eqb x y = true <-> x = y) -> ok a -> ok b ->
  dirac (eqb a b) = dirac (Z.to_nat (f a) =? Z.to_nat (f b)).
Proof.
  intros (R & J & _) Q Ha Hb. f_equal. apply Bool.eq_iff_eq_true. rewrite Q, Nat.eqb_eq. split; [congruence|].
  intros E. apply J; auto. pose proof (R a Ha). pose proof (R b Hb). lia.
Qed.
Lemma E0_row o p e (f : nat -> Z) : edge_ok p e ->
  zsum (tnb0 p) (fun k => (tE0 o p (Z.to_nat (dofe o p e)) k * f k)%Z) =
  (sgn0 o e * (f (Z.to_nat (dofn p (stop e))) - f (Z.to_nat (dofn p (start e)))))%Z.
Proof.
  intros He. destruct (start_ok p e He) as (Hs & Ht & _). pose proof (numbers_node p) as N. destruct N as (RN & IN & SN).
  transitivity (zsum (tnb0 p) (fun k => (sgn0 o e * (dirac (Nat.eqb k (Z.to_nat (dofn p (stop e)))) * f k
                                          - dirac (Nat.eqb k (Z.to_nat (dofn p (start e)))) * f k))%Z)).
  - apply zsum_ext. intros k Hk. destruct (SN k Hk) as (n & Hn & E).
    replace k with (Z.to_nat (dofn p n)) by lia. rewrite (E0_ok o p e n He Hn). unfold d_node. fold (sgn0 o e).
    rewrite (dirac_dof _ _ _ tnode_eqb n (stop e) (numbers_node p) tnode_eqb_eq Hn Ht).
    rewrite (dirac_dof _ _ _ tnode_eqb n (start e) (numbers_node p) tnode_eqb_eq Hn Hs). ring.
  - rewrite zsum_mul, zsum_minus. pose proof (RN _ Hs). pose proof (RN _ Ht). rewrite !zsum_pick by lia. reflexivity.
Qed.
(* the dx edge that is collapsed has no dof *)
Definition at_dx (o : orient) (p i j : nat) (f : nat -> Z) : Z := if j =? 0 then 0%Z else f (Z.to_nat (dofe o p (Dx i j))).
Lemma E1_row o p i j (f : nat -> Z) : i < p -> j < p ->
  zsum (tnb1 p) (fun k => (tE1 o p (Z.to_nat (tln2 p i j)) k * f k)%Z) =
  (sgn1 o * (f (Z.to_nat (dofe o p (Dx i (j + 1)))) - at_dx o p i j f)
   + (f (Z.to_nat (dofe o p (Dy (i + 1) j))) - f (Z.to_nat (dofe o p (Dy i j)))))%Z.
Proof.
  intros Hi Hj. destruct (numbers_edge o p) as (RE & IE & SE).
  assert (K1 : edge_ok p (Dx i (j + 1))) by (cbn; lia).
  assert (K2 : edge_ok p (Dy (i + 1) j)) by (cbn; lia). assert (K3 : edge_ok p (Dy i j)) by (cbn; lia).
  transitivity (zsum (tnb1 p) (fun k =>
     (sgn1 o * (dirac (Nat.eqb k (Z.to_nat (dofe o p (Dx i (j + 1))))) * f k
               - (if Nat.eqb j 0 then 0 else dirac (Nat.eqb k (Z.to_nat (dofe o p (Dx i j)))) * f k))
      + (dirac (Nat.eqb k (Z.to_nat (dofe o p (Dy (i + 1) j)))) * f k - dirac (Nat.eqb k (Z.to_nat (dofe o p (Dy i j)))) * f k))%Z)).
  - apply zsum_ext. intros k Hk. destruct (SE k Hk) as (e & He & E).
    replace k with (Z.to_nat (dofe o p e)) by lia. rewrite (E1_ok o p i j e Hi Hj He). unfold d_edge. fold (sgn1 o).
    rewrite (dirac_dof _ _ _ tedge_eqb e (Dx i (j + 1)) (numbers_edge o p) tedge_eqb_eq He K1).
    rewrite (dirac_dof _ _ _ tedge_eqb e (Dy (i + 1) j) (numbers_edge o p) tedge_eqb_eq He K2).
    rewrite (dirac_dof _ _ _ tedge_eqb e (Dy i j) (numbers_edge o p) tedge_eqb_eq He K3).
    destruct (j =? 0) eqn:B.
    + apply Nat.eqb_eq in B. subst j. destruct (dirac_edge e (Dx i 0)) as [[-> _]|[_ ->]]; [cbn in He; lia|]. ring.
    + apply Nat.eqb_neq in B.
      rewrite (dirac_dof _ _ _ tedge_eqb e (Dx i j) (numbers_edge o p) tedge_eqb_eq He ltac:(cbn; lia)). ring.
  - rewrite zsum_plus, zsum_mul, !zsum_minus. pose proof (RE _ K1). pose proof (RE _ K2). pose proof (RE _ K3).
    rewrite !zsum_pick by lia. f_equal. f_equal. f_equal. unfold at_dx. destruct (j =? 0) eqn:B.
    + apply (bsum_0 ZR). reflexivity.
    + apply Nat.eqb_neq in B. pose proof (RE (Dx i j) ltac:(cbn; lia)). rewrite zsum_pick by lia. reflexivity.
Qed.
Lemma E1E0_zero o p i j (f : nat -> Z) : i < p -> j < p ->
  zsum (tnb1 p) (fun k => (tE1 o p (Z.to_nat (tln2 p i j)) k * zsum (tnb0 p) (fun c => (tE0 o p k c * f c)%Z))%Z) = 0%Z.
Proof.
  intros Hi Hj. rewrite (E1_row o p i j _ Hi Hj). unfold at_dx.
  rewrite (E0_row o p (Dx i (j + 1))), (E0_row o p (Dy (i + 1) j)), (E0_row o p (Dy i j)) by (cbn; lia).
  cbn [start stop sgn0].
  destruct (j =? 0) eqn:B.
  - apply Nat.eqb_eq in B. subst j. cbn [node_at Nat.add]. destruct o; cbn [sgn1 sgn0]; ring.
  - apply Nat.eqb_neq in B. rewrite E0_row by (cbn; lia). cbn [start stop sgn0]. destruct o; cbn [sgn1 sgn0]; ring.
Qed.
Lemma E1E0_entry o p r c : r < tnb2 p -> c < tnb0 p ->
  zsum (tnb1 p) (fun k => (tE1 o p r k * tE0 o p k c)%Z) = 0%Z.
Proof.
  intros Hr Hc. destruct (numbers_face p) as (_ & _ & SF). destruct (SF r Hr) as ([i j] & [Hi Hj] & E). cbn [fst snd] in *.
  rewrite <- (E1E0_zero o p i j (fun k => dirac (k =? c)) Hi Hj). replace r with (Z.to_nat (tln2 p i j)) by lia.
  apply zsum_ext. intros k _. f_equal.
  rewrite <- (zsum_pick (tnb0 p) c (fun c' => tE0 o p k c') Hc). apply zsum_ext. intros. ring.
Qed.
Lemma incidence_ok o p :
  (forall e n, edge_ok p e -> node_ok p n ->
     tE0 o p (Z.to_nat (match e with Dx i j => tln_dx o p i j | Dy i j => tln_dy o p i j end))
             (Z.to_nat (match n with Sing => tln0 p 0 0 | Nd i j => tln0 p i j end)) = d_node o e n) /\
  (forall i j e, i < p -> j < p -> edge_ok p e ->
     tE1 o p (Z.to_nat (tln2 p i j)) (Z.to_nat (match e with Dx i j => tln_dx o p i j | Dy i j => tln_dy o p i j end)) = d_edge o i j e) /\
  (forall r c, r < tnb2 p -> c < tnb0 p ->
     @bsum ZR nat (seq 0 (tnb1 p)) (fun k => (tE1 o p r k * tE0 o p k c)%Z) = 0%Z).
Proof. split; [exact (E0_ok o p)|split; [exact (E1_ok o p)|exact (E1E0_entry o p)]]. Qed.
