(* Discretized forms have one value at each dof of a triangular mesh. *)
From Coq Require Import Reals List Lra Lia Arith ZArith Bool.
From Verif Require Import CtModel CtSpec RingSum SpaceModel SpaceSpec DiscModel DiscSpec DiscProofs DiscProofs2 DiscProofs3 Disc2Model Disc2Spec Disc2Proofs.
From Verif Require Import TriModel TriSpec TriProofs TriProofs2 TriProofs5 TriProofs6 TriProofs7 TdiscModel TdiscSpec TdiscProofs TdiscProofs2 TdiscProofs3.
Import ListNotations.
Open Scope R_scope.

Lemma rsum_app {A} (l m : list A) f : rsum (l ++ m) f = rsum l f + rsum m f.
Proof. induction l as [|x l IH]; cbn [app]; [unfold rsum at 2; cbn [fold_right]; ring|]. rewrite !rsum_cons, IH. ring. Qed.
Lemma rsum_rev {A} (l : list A) f : rsum (rev l) f = rsum l f.
Proof. induction l as [|x l IH]; [reflexivity|]. cbn [rev]. rewrite rsum_app, IH, !rsum_cons. unfold rsum at 2. cbn [fold_right]. ring. Qed.
Lemma Q_sym p n r k h : sym_nodes p n -> sym_rule r -> (k < p)%nat -> Q n r (true, (p - 1 - k)%nat) h = Q n r (true, k) (fun t => h (- t)).
Proof.
  intros (L & _ & Y) W Hk. unfold Q, factor_rule. rewrite !rsum_map. cbn [fst snd].
  red in W. rewrite W at 1. rewrite rsum_rev, rsum_map. apply rsum_ext. intros [q w] _. cbn [fst snd].
  replace (S (p - 1 - k))%nat with (p - k)%nat by lia. replace (p - 1 - k)%nat with (p - S k)%nat by lia.
  rewrite (Y k), (Y (S k)) by lia.
  replace ((1 - - q) / 2 * - nth (S k) n 0 + (1 + - q) / 2 * - nth k n 0) with (- ((1 - q) / 2 * nth k n 0 + (1 + q) / 2 * nth (S k) n 0)) by field.
  field.
Qed.
Section Single.
  Variables (conds : list (nat * (point -> bool))) (pts : list point) (cells0 cells : list tri) (M : smap) (p : nat) (n : list R).
  Hypothesis HE : make_mesh conds pts cells0 = Some (cells, M).
  Hypothesis HO : no_overlap pts cells.
  Hypothesis Hp : (1 <= p)%nat.
  Hypothesis HS : sym_nodes p n.
  Let Hn : length n = S p := proj1 HS.
  Let H0 : nth 0 n 0 = -1 := proj1 (proj2 HS).
  Let HK : mesh_ok pts cells := made_mesh conds pts cells0 cells M HE HO.
  Let HD : describes cells M := proj1 (made_describes conds pts cells0 cells M HE HO).
  Notation Fc c := (tct_mapping (corner_pt pts cells c 0) (corner_pt pts cells c 1) (corner_pt pts cells c 2)).
  Notation Jc c := (tct_Jacobian_matrix (corner_pt pts cells c 0) (corner_pt pts cells c 1) (corner_pt pts cells c 2)).
  Definition place (l : loc0) : point :=
    match l with
    | LV v => pt pts v
    | LE a b k => between (pt pts a) (pt pts b) ((nth k n 0 + 1) / 2)
    | LI c i j => image (Fc c) (nth i n 0) (nth j n 0)
    end.
  Lemma last_node : nth p n 0 = 1.
  Proof. pose proof HS as HS1. destruct HS1 as (_ & Z & Y). replace p with (p - 0)%nat by lia. rewrite Y by lia. rewrite Z. ring. Qed.
  Lemma place_line a b k : (k <= p)%nat -> place (on_line p a b k) = between (pt pts a) (pt pts b) ((nth k n 0 + 1) / 2).
  Proof.
    intros Hk. unfold on_line. destruct (Nat.ltb a b); [reflexivity|]. cbn [place]. pose proof HS as HS1. destruct HS1 as (_ & _ & Y). rewrite Y by exact Hk.
    unfold between. f_equal; field.
  Qed.
  Lemma place_node c k : node_ok p k -> image (Fc c) (fst (node_pos n k)) (snd (node_pos n k)) = place (whn p cells c k).
  Proof.
    intros Hk.
    assert (G : forall i j, (i <= p)%nat -> (j <= p)%nat -> image (Fc c) (nth i n 0) (nth j n 0) = place (where0 p cells c i j)).
    { intros i j Hi Hj.
      pose proof (fun t => proj1 (tct_sides (corner_pt pts cells c 0) (corner_pt pts cells c 1) (corner_pt pts cells c 2) t)) as T0.
      pose proof (fun t => proj1 (proj2 (tct_sides (corner_pt pts cells c 0) (corner_pt pts cells c 1) (corner_pt pts cells c 2) t))) as T1.
      pose proof (fun t => proj1 (proj2 (proj2 (tct_sides (corner_pt pts cells c 0) (corner_pt pts cells c 1) (corner_pt pts cells c 2) t)))) as T2.
      pose proof (fun t => proj2 (proj2 (proj2 (tct_sides (corner_pt pts cells c 0) (corner_pt pts cells c 1) (corner_pt pts cells c 2) t)))) as T3.
      pose proof last_node as LN. unfold where0.
      destruct (Nat.eqb_spec j 0) as [->|J0]; [rewrite H0, T0; reflexivity|].
      destruct (Nat.eqb_spec j p) as [->|Jp].
      - rewrite LN, T3. destruct (Nat.eqb_spec i 0) as [->|I0].
        + rewrite H0. cbn [place]. unfold between, corner_pt. destruct (pt pts (corner (cl cells c) 2)) as [x y]. cbn [fst snd]. f_equal; field.
        + destruct (Nat.eqb_spec i p) as [->|Ip].
          * rewrite LN. cbn [place]. unfold between, corner_pt. destruct (pt pts (corner (cl cells c) 1)) as [x y]. cbn [fst snd]. f_equal; field.
          * rewrite place_line by exact Hi. reflexivity.
      - destruct (Nat.eqb_spec i 0) as [->|I0]; [rewrite H0, T2, place_line by exact Hj; reflexivity|].
        destruct (Nat.eqb_spec i p) as [->|Ip]; [rewrite LN, T1, place_line by exact Hj; reflexivity|]. reflexivity. }
    destruct k as [|i j]; cbn [node_ok node_pos fst snd whn] in *; apply G; lia.
  Qed.
  Lemma single0 A m f c k c' k' : numbering0 p cells M = Some (A, m) -> (c < length cells)%nat -> (c' < length cells)%nat ->
    (k < tnb0 p)%nat -> (k' < tnb0 p)%nat -> num0 p A c k = num0 p A c' k' ->
    nth k (tdisc0 p n (Fc c) f) 0 = nth k' (tdisc0 p n (Fc c') f) 0.
  Proof.
    intros EA Hc Hc' Hk Hk' E.
    destruct (final0 conds pts cells0 cells M p HE HO Hp) as (A' & m' & EA' & _ & _ & _ & J0 & _). rewrite EA in EA'. injection EA' as <- <-.
    destruct (numbers_node p) as (_ & _ & SN). destruct (SN k Hk) as (d & Hd & Ed). destruct (SN k' Hk') as (d' & Hd' & Ed').
    replace k with (Z.to_nat (dofn p d)) in * by lia. replace k' with (Z.to_nat (dofn p d')) in * by lia.
    apply J0 in E; [|assumption..]. rewrite !(tdisc0_at p n Hn) by assumption.
    pose proof (place_node c d Hd) as P. pose proof (place_node c' d' Hd') as P'. rewrite E in P. rewrite <- P' in P. unfold image in P. unfold through2.
    pose proof (f_equal fst P) as P0. pose proof (f_equal snd P) as P1. cbn [fst snd] in P0, P1. rewrite P0, P1. reflexivity.
  Qed.
  Variable r : list R * list R.
  Hypothesis HR : sym_rule r.
  Notation g := (mkGrid2 n n r r).
  Variable v : (R -> R -> R) * (R -> R -> R).
  Definition half (a b : point) : plane := (1 / 2 * (fst b - fst a), 1 / 2 * (snd b - snd a)).
  Definition v_at (q : point) : plane := value2 v (fst q) (snd q).
  Definition seg (o : orient) (a b : point) (k : nat) : R :=
    Q n r (true, k) (fun t => match o with Inner => dot2 (half a b) (v_at (between a b ((t + 1) / 2))) | Outer => cross2 (v_at (between a b ((t + 1) / 2))) (half a b) end).
  Lemma seg_swap o a b k : (k < p)%nat -> seg o b a (p - 1 - k) = - seg o a b k.
  Proof.
    intros Hk. unfold seg. rewrite (Q_sym p n r k _ HS HR Hk).
    rewrite (Q_ext n r (true, k) _ (fun t => 0 - match o with Inner => dot2 (half a b) (v_at (between a b ((t + 1) / 2))) | Outer => cross2 (v_at (between a b ((t + 1) / 2))) (half a b) end)).
    - rewrite Q_minus. assert (Z : Q n r (true, k) (fun _ => 0) = 0); [|rewrite Z; apply Rminus_0_l]. unfold Q.
      etransitivity; [|exact (rsum_zero (factor_rule n r (true, k)))]. apply rsum_ext. intros. apply Rmult_0_l.
    - intros t. replace (between b a ((- t + 1) / 2)) with (between a b ((t + 1) / 2)) by (unfold between; f_equal; field).
      destruct o; unfold dot2, cross2, half; cbn [fst snd]; ring.
  Qed.
  Lemma int_side o c m k : (m < 3)%nat ->
    int_edge o g (Fc c) (Jc c) v (epos1 p m k) =
    IZR (sgn0 o (epos1 p m k)) * seg o (pt pts (fst (ends (cl cells c) m))) (pt pts (snd (ends (cl cells c) m))) k.
  Proof.
    intros Hm. pose proof last_node as LN.
    assert (P : forall u w, v_at (image (Fc c) u w) = through2 (value2 v) (Fc c) u w) by reflexivity.
    assert (T := tct_sides (corner_pt pts cells c 0) (corner_pt pts cells c 1) (corner_pt pts cells c 2)).
    assert (D1 : forall t d, circ (Fc c) (Jc c) v d t 1 = dot2 (mcol (Jc c t 1) d) (v_at (image (Fc c) t 1))) by reflexivity.
    destruct m as [|[|[|m]]]; [| | |lia]; cbn [epos1 ends fst snd].
    - assert (X : quad2 g (match o with Inner => circ (Fc c) (Jc c) v true | Outer => flux (Fc c) (Jc c) v true end) (edge_cell (Dy p k)) =
        seg o (pt pts (corner (cl cells c) 0)) (pt pts (corner (cl cells c) 1)) k).
      { cbn [edge_cell]. rewrite quad2_Q, Q_pt. unfold seg, nd. cbn [hx hy sx sy]. rewrite LN. apply Q_ext. intros t.
        destruct (T t) as (_ & T1 & _). unfold corner_pt in T1. rewrite <- T1. unfold corner_pt in *.
        destruct o; unfold flux, circ; change (v_at (image ?F ?u ?w)) with (through2 (value2 v) F u w); f_equal;
          unfold mcol, half, comp; rewrite tct_J; cbn [fst snd]; f_equal; field. }
      destruct o; cbn [int_edge sgn0]; unfold int2_inner, int2_outer; cbn [along2 edge_cell map fst orient_out]; cbn [edge_cell] in X; rewrite X; ring.
    - assert (X : quad2 g (match o with Inner => circ (Fc c) (Jc c) v true | Outer => flux (Fc c) (Jc c) v true end) (edge_cell (Dy 0 k)) =
        seg o (pt pts (corner (cl cells c) 0)) (pt pts (corner (cl cells c) 2)) k).
      { cbn [edge_cell]. rewrite quad2_Q, Q_pt. unfold seg, nd. cbn [hx hy sx sy]. rewrite H0. apply Q_ext. intros t.
        destruct (T t) as (_ & _ & T1 & _). unfold corner_pt in T1. rewrite <- T1. unfold corner_pt in *.
        destruct o; unfold flux, circ; change (v_at (image ?F ?u ?w)) with (through2 (value2 v) F u w); f_equal;
          unfold mcol, half, comp; rewrite tct_J; cbn [fst snd]; f_equal; field. }
      destruct o; cbn [int_edge sgn0]; unfold int2_inner, int2_outer; cbn [along2 edge_cell map fst orient_out]; cbn [edge_cell] in X; rewrite X; ring.
    - assert (X : quad2 g (match o with Inner => circ (Fc c) (Jc c) v false | Outer => flux (Fc c) (Jc c) v false end) (edge_cell (Dx k p)) =
        seg o (pt pts (corner (cl cells c) 2)) (pt pts (corner (cl cells c) 1)) k).
      { cbn [edge_cell]. rewrite quad2_Q, Q_swap, Q_pt. unfold seg, nd. cbn [hx hy sx sy]. rewrite LN. apply Q_ext. intros t.
        destruct (T t) as (_ & _ & _ & T1). unfold corner_pt in T1. rewrite <- T1. unfold corner_pt in *.
        destruct o; unfold flux, circ; change (v_at (image ?F ?u ?w)) with (through2 (value2 v) F u w); f_equal;
          unfold mcol, half, comp; rewrite tct_J; cbn [fst snd]; f_equal; field. }
      destruct o; cbn [int_edge sgn0]; unfold int2_inner, int2_outer; cbn [along2 edge_cell map fst orient_out]; cbn [edge_cell] in X; rewrite X; ring.
  Qed.
  Lemma single1 o A m c k c' k' : numbering1 o p M = Some (A, m) -> (c < length cells)%nat -> (c' < length cells)%nat ->
    (k < tnb1 p)%nat -> (k' < tnb1 p)%nat -> num1 o p A c k = num1 o p A c' k' ->
    nth k (tdisc1 o p n r r M c (Fc c) (Jc c) v) 0 = nth k' (tdisc1 o p n r r M c' (Fc c') (Jc c') v) 0.
  Proof.
    intros EA Hc Hc' Hk Hk' E.
    destruct (final1 conds pts cells0 cells M p HE HO Hp o) as (A' & m' & EA' & _ & _ & _ & J1 & _). rewrite EA in EA'. injection EA' as <- <-.
    destruct (numbers_edge o p) as (_ & _ & SE). destruct (SE k Hk) as (e & He & Ee). destruct (SE k' Hk') as (e' & He' & Ee').
    replace k with (Z.to_nat (dofe o p e)) in * by lia. replace k' with (Z.to_nat (dofe o p e')) in * by lia.
    apply J1 in E; [|assumption..]. clear k k' Hk Hk' Ee Ee' J1. rewrite !(tdisc1_at p n r r Hn) by assumption.
    destruct (Nat.eq_dec c c') as [<-|Hne].
    - assert (e = e') as <-; [|reflexivity]. exact (where1_inj p pts cells Hp HK c e e' Hc He He' E).
    - destruct (shared_sides p pts cells M Hp HK HD c e c' e' Hc Hc' Hne He He' E) as (i & j & s & k & k' & Hi & Hj & Hk & -> & -> & Ek & S1 & S2 & F).
      rewrite (transition_on o p M c i) by (try assumption; apply epos1_sel; assumption).
      assert (Hk' : (k' < p)%nat) by (subst k'; destruct s; lia).
      rewrite (transition_on o p M c' j) by (try assumption; apply epos1_sel; assumption).
      pose proof (sign_product p cells M Hp o c c' i j s Hc Hc' Hne Hi Hj S1 S2 F) as T.
      pose proof (mesh_coherent pts cells c i c' j s HK Hc Hc' Hi Hj Hne F) as C.
      rewrite !int_side by assumption. unfold fits in F. rewrite F.
      set (a := pt pts (fst (ends (cl cells c') j))). set (b := pt pts (snd (ends (cl cells c') j))).
      assert (X : seg o (pt pts (fst (if s then ends (cl cells c') j else swap (ends (cl cells c') j)))) (pt pts (snd (if s then ends (cl cells c') j else swap (ends (cl cells c') j)))) k =
        IZR (if s then 1 else -1) * seg o a b k').
      { subst k'. destruct s; [unfold a, b; ring|]. unfold swap. cbn [fst snd]. fold a b. rewrite (seg_swap o b a k Hk). ring. }
      rewrite X. clear X. set (X := seg o a b k'). rewrite <- !Rmult_assoc, <- !mult_IZR. f_equal. f_equal.
      assert (Q1 : sgn0 o (epos1 p i k) = (match o with Inner => 1 | Outer => out i * turn i end)%Z) by (clear -Hi; destruct i as [|[|[|]]]; [| | |lia]; destruct o; reflexivity).
      assert (Q2 : sgn0 o (epos1 p j k') = (match o with Inner => 1 | Outer => out j * turn j end)%Z) by (clear -Hj; destruct j as [|[|[|]]]; [| | |lia]; destruct o; reflexivity).
      rewrite Q1, Q2. clear - T C Hi Hj.
      destruct i as [|[|[|]]]; [| | |lia]; (destruct j as [|[|[|]]]; [| | |lia]);
      destruct (minus o M c _), (minus o M c' _), o, s; cbn in *; try reflexivity; try discriminate.
  Qed.
End Single.
