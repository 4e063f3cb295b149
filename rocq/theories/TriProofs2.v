From Coq Require Import List Arith ZArith Bool Lia Reals Lra.
From Verif Require Import Prelude TriModel TriSpec.
Import ListNotations.

(* ---------- one pair of cells ---------- *)
Definition fits (t : tri) (m : nat) (t' : tri) (s : bool) (n : nat) : Prop :=
  ends t m = if s then ends t' n else swap (ends t' n).
Definition line2 (t : tri) (m : nat) (t' : tri) (n : nat) : Prop :=
  ends t m = ends t' n \/ ends t m = swap (ends t' n).
Ltac three m := destruct m as [|[|[|m]]]; [| | |exfalso; lia].
Ltac eqcase :=
  match goal with
  | |- context [?a =? ?b] => destruct (Nat.eqb_spec a b); subst
  | H : context [?a =? ?b] |- _ => destruct (Nat.eqb_spec a b); subst
  end.
Lemma num_shared_line t t' m n : distinct t -> m < 3 -> n < 3 -> line2 t m t' n -> 2 <= num_shared t t'.
Proof.
  destruct t as [[a b] c], t' as [[x y] z]. unfold distinct, line2, num_shared. cbn [corner vertices].
  intros (D1 & D2 & D3) Hm Hn L. cbn [filter existsb].
  three m; three n; cbn in L; destruct L as [L|L]; injection L as L1 L2; subst;
  rewrite ?Nat.eqb_refl, ?orb_true_r; cbn [orb length];
  repeat match goal with |- context [if ?b then _ else _] => destruct b end; cbn [length]; lia.
Qed.
Lemma num_shared_all t t' : distinct t -> 3 <= num_shared t t' ->
  forall k, k < 3 -> exists k', k' < 3 /\ corner t k = corner t' k'.
Proof.
  destruct t as [[a b] c], t' as [[x y] z]. unfold num_shared. cbn [vertices]. intros _ H k Hk.
  assert (A : forall v, existsb (Nat.eqb v) [x; y; z] = true -> exists k', k' < 3 /\ v = corner (x, y, z) k').
  { intros v Hv. cbn [existsb] in Hv. destruct (Nat.eqb_spec v x) as [E|]; [exists 0; split; [lia|exact E]|].
    destruct (Nat.eqb_spec v y) as [E|]; [exists 1; split; [lia|exact E]|].
    destruct (Nat.eqb_spec v z) as [E|]; [exists 2; split; [lia|exact E]|]. cbn in Hv. discriminate. }
  cbn [filter] in H.
  destruct (existsb (Nat.eqb a) [x; y; z]) eqn:B1; destruct (existsb (Nat.eqb b) [x; y; z]) eqn:B2;
  destruct (existsb (Nat.eqb c) [x; y; z]) eqn:B3; cbn [length] in H; try lia.
  three k; cbn [corner]; apply A; assumption.
Qed.
Lemma match_edges_ok t t' m s n : distinct t -> distinct t' -> num_shared t t' = 2 ->
  match_edges 0 (tri_edges t) t' = (m, (s, n)) ->
  m < 3 /\ n < 3 /\ fits t m t' s n /\
  forall m' n', m' < 3 -> n' < 3 -> line2 t m' t' n' -> m' = m /\ n' = n.
Proof.
  destruct t as [[a b] c], t' as [[x y] z]. unfold distinct. cbn [corner].
  intros (D1 & D2 & D3) (D4 & D5 & D6) HN HM.
  assert (U : forall m' n', m' < 3 -> n' < 3 -> line2 (a, b, c) m' (x, y, z) n' ->
     m < 3 -> n < 3 -> fits (a, b, c) m (x, y, z) s n -> m' = m /\ n' = n).
  { intros m' n' Hm' Hn' L Hm Hn F. clear HM.
    destruct (Nat.eq_dec m' m) as [->|Nm].
    - split; [reflexivity|].
      assert (Fl : line2 (a, b, c) m (x, y, z) n) by (unfold fits in F; destruct s; [left|right]; exact F).
      clear F. unfold line2 in L, Fl.
      assert (ends (x, y, z) n' = ends (x, y, z) n \/ ends (x, y, z) n' = swap (ends (x, y, z) n)) as Q.
      { destruct L as [L|L], Fl as [Fl|Fl]; rewrite L in Fl.
        - left; exact Fl.
        - right; exact Fl.
        - right. rewrite <- Fl. destruct (ends (x, y, z) n'); reflexivity.
        - left. destruct (ends (x, y, z) n'), (ends (x, y, z) n). cbn in Fl. injection Fl as -> ->. reflexivity. }
      three n; three n'; cbn in Q; try reflexivity; unfold swap in Q; cbn [fst snd] in Q; destruct Q as [Q|Q]; congruence.
    - exfalso. assert (3 <= num_shared (a, b, c) (x, y, z)); [|lia]. clear HN.
      unfold num_shared. cbn [vertices].
      assert (Fl : line2 (a, b, c) m (x, y, z) n) by (unfold fits in F; destruct s; [left|right]; exact F). clear F.
      assert (In1 : forall m n, m < 3 -> n < 3 -> line2 (a, b, c) m (x, y, z) n ->
         existsb (Nat.eqb (fst (ends (a, b, c) m))) [x; y; z] = true /\ existsb (Nat.eqb (snd (ends (a, b, c) m))) [x; y; z] = true).
      { clear. intros m n Hm Hn [L|L]; rewrite L; three n; cbn; rewrite ?Nat.eqb_refl, ?orb_true_r; auto. }
      destruct (In1 m n Hm Hn Fl) as [A1 A2]. destruct (In1 m' n' Hm' Hn' L) as [A3 A4].
      assert (existsb (Nat.eqb a) [x; y; z] = true /\ existsb (Nat.eqb b) [x; y; z] = true /\ existsb (Nat.eqb c) [x; y; z] = true)
        as (B1 & B2 & B3).
      { three m; three m'; try congruence; cbn [ends corner fst snd] in A1, A2, A3, A4; auto. }
      cbn [filter]. rewrite B1, B2, B3. cbn. lia. }
  assert (m < 3 /\ n < 3 /\ fits (a, b, c) m (x, y, z) s n) as (Hm & Hn & F).
  2: { split; [exact Hm|]. split; [exact Hn|]. split; [exact F|]. intros m' n' Hm' Hn' L. apply U; assumption. }
  clear U. revert HM.
  assert (St : forall k e es, match_edges k (e :: es) (x, y, z) =
     match find (fun x0 => pair_eqb e (fst x0)) (tes (x, y, z)) with Some x0 => (k, snd x0) | None => match_edges (k + 1) es (x, y, z) end)
    by reflexivity.
  assert (Fd : forall e x0, find (fun x0 => pair_eqb e (fst x0)) (tes (x, y, z)) = Some x0 ->
     snd (snd x0) < 3 /\ e = if fst (snd x0) then ends (x, y, z) (snd (snd x0)) else swap (ends (x, y, z) (snd (snd x0)))).
  { intros e x0 H. apply find_some in H. destruct H as [H1 H2]. destruct e as [e1 e2]. unfold pair_eqb in H2.
    apply andb_prop in H2. destruct H2 as [H2 H3]. apply Nat.eqb_eq in H2, H3. cbn [fst snd] in H2, H3.
    unfold tes in H1. cbn in H1.
    destruct H1 as [<-|[<-|[<-|[<-|[<-|[<-|[]]]]]]]; cbn in H2, H3 |- *; subst; split; auto. }
  unfold tri_edges. rewrite St.
  destruct (find (fun x0 => pair_eqb (a, b) (fst x0)) (tes (x, y, z))) as [x0|] eqn:F1.
  { intros H. injection H as <- H. destruct (Fd _ _ F1) as [G1 G2]. rewrite H in G1, G2. cbn in G1, G2.
    split; [lia|]. split; [exact G1|exact G2]. }
  rewrite St. destruct (find (fun x0 => pair_eqb (a, c) (fst x0)) (tes (x, y, z))) as [x0|] eqn:F2.
  { intros H. injection H as <- H. destruct (Fd _ _ F2) as [G1 G2]. rewrite H in G1, G2. cbn in G1, G2.
    split; [lia|]. split; [exact G1|exact G2]. }
  rewrite St. destruct (find (fun x0 => pair_eqb (c, b) (fst x0)) (tes (x, y, z))) as [x0|] eqn:F3.
  { intros H. injection H as <- H. destruct (Fd _ _ F3) as [G1 G2]. rewrite H in G1, G2. cbn in G1, G2.
    split; [lia|]. split; [exact G1|exact G2]. }
  exfalso. clear St Fd.
  assert (N : forall e1 e2, find (fun x0 => pair_eqb (e1, e2) (fst x0)) (tes (x, y, z)) = None ->
     existsb (Nat.eqb e1) [x; y; z] = true -> existsb (Nat.eqb e2) [x; y; z] = true -> e1 <> e2 -> False).
  { intros e1 e2 H X1 X2 Ne. cbn [existsb] in X1, X2.
    assert (In e1 [x; y; z]) as I1 by (cbn; rewrite !orb_true_iff, !Nat.eqb_eq in X1; intuition congruence).
    assert (In e2 [x; y; z]) as I2 by (cbn; rewrite !orb_true_iff, !Nat.eqb_eq in X2; intuition congruence).
    assert (exists q, In q (tes (x, y, z)) /\ fst q = (e1, e2)) as (q & Hq & Eq).
    { cbn in I1, I2. destruct I1 as [<-|[<-|[<-|[]]]]; destruct I2 as [<-|[<-|[<-|[]]]]; try congruence; unfold tes.
      - exists ((x, y), (true, 0)). cbn. auto.
      - exists ((x, z), (true, 1)). cbn. auto.
      - exists ((y, x), (false, 0)). cbn. auto 7.
      - exists ((y, z), (false, 2)). cbn. auto 8.
      - exists ((z, x), (false, 1)). cbn. auto 8.
      - exists ((z, y), (true, 2)). cbn. auto 8. }
    pose proof (find_none _ _ H q Hq) as Z0. cbn beta in Z0. rewrite Eq in Z0. unfold pair_eqb in Z0. cbn [fst snd] in Z0.
    rewrite !Nat.eqb_refl in Z0. discriminate. }
  unfold num_shared in HN. cbn [vertices filter] in HN.
  destruct (existsb (Nat.eqb a) [x; y; z]) eqn:B1; destruct (existsb (Nat.eqb b) [x; y; z]) eqn:B2;
  destruct (existsb (Nat.eqb c) [x; y; z]) eqn:B3; cbn [length] in HN; try lia.
  - exact (N a b F1 B1 B2 D1).
  - exact (N a c F2 B1 B3 D2).
  - apply (N c b F3 B3 B2). congruence.
Qed.
(* every pair with three common corners is met when nothing is left to do, or the construction stops *)

(* ---------- the element map ---------- *)
Lemma nth_update {A} (l : list A) k x d i : k < length l -> nth i (update l k x) d = if i =? k then x else nth i l d.
Proof.
  revert k i. induction l as [|a l IH]; intros k i H; [cbn in H; lia|].
  destruct k as [|k]; destruct i as [|i]; cbn; try reflexivity. cbn in H. apply IH. lia.
Qed.
Lemma length_update {A} (l : list A) k x : length (update l k x) = length l.
Proof. revert k. induction l as [|a l IH]; intros k; [reflexivity|]. destruct k; cbn; [reflexivity|]. rewrite IH. reflexivity. Qed.
Definition mk (M : emap) (c m : nat) : mark := nth m (nth c M []) None.
Section Map.
  Variable cells : list tri.
  Hypothesis HM : manifold cells.
  Hypothesis HS : simple cells.
  Let N := length cells.
  Definition sized (M : emap) : Prop := length M = N /\ forall c, c < N -> length (nth c M []) = 3.
  Definition sound_mark (c m : nat) (x : mark) : Prop :=
    match x with
    | None => True
    | Some (j, s, n) => j < N /\ n < 3 /\ j <> c /\ fits (cl cells c) m (cl cells j) s n
    end.
  Definition good (M : emap) (D : nat -> nat -> Prop) : Prop :=
    sized M /\ (forall c m, c < N -> m < 3 -> sound_mark c m (mk M c m)) /\
    (forall c j m n, D c j \/ D j c -> c < N -> j < N -> m < 3 -> n < 3 -> same_line cells c m j n -> mk M c m <> None).
  Lemma mk_set M c m x c' m' : sized M -> c < N -> m < 3 -> 
    mk (set_mark M c m x) c' m' = if (c' =? c) && (m' =? m) then x else mk M c' m'.
  Proof.
    intros [L1 L2] Hc Hm. unfold mk, set_mark. rewrite nth_update by (rewrite L1; exact Hc).
    destruct (Nat.eqb_spec c' c) as [->|]; [|reflexivity]. cbn [andb]. rewrite nth_update by (rewrite L2; [exact Hm|exact Hc]).
    reflexivity.
  Qed.
  Lemma sized_set M c m x : sized M -> c < N -> sized (set_mark M c m x).
  Proof.
    intros [L1 L2] Hc. unfold set_mark. split; [rewrite length_update; exact L1|]. intros c' Hc'.
    rewrite nth_update by (rewrite L1; exact Hc). destruct (c' =? c); [|apply L2; exact Hc'].
    rewrite length_update. apply L2. exact Hc.
  Qed.
  Lemma fits_sym t m t' s n : fits t m t' s n -> fits t' n t s m.
  Proof.
    unfold fits. destruct s; [auto|]. intros ->. unfold swap. destruct (ends t' n). reflexivity.
  Qed.
  Lemma line_sym c m j n : same_line cells c m j n -> same_line cells j n c m.
  Proof.
    unfold same_line. intros [H|H]; [left; auto|right]. rewrite H. unfold swap. destruct (ends (cl cells j) n). reflexivity.
  Qed.
  Lemma map_row_ok i js M (D : nat -> nat -> Prop) : i < N -> (forall j, In j js -> i < j < N) -> good M D ->
    exists M', map_row cells i js M = Some M' /\ good M' (fun c j => D c j \/ (c = i /\ In j js)).
  Proof.
    intros Hi. revert M D. induction js as [|j js IH]; intros M D Hjs HG.
    - exists M. split; [reflexivity|]. destruct HG as (G1 & G2 & G3). split; [exact G1|]. split; [exact G2|].
      intros c j m n H. apply G3. cbn in H. tauto.
    - cbn [map_row]. assert (i < j < N) as Hj by (apply Hjs; left; reflexivity).
      assert (Hjs' : forall j, In j js -> i < j < N) by (intros; apply Hjs; right; assumption).
      change (cell_at cells i) with (cl cells i). change (cell_at cells j) with (cl cells j).
      assert (Di : distinct (cl cells i)) by (apply HM; exact Hi).
      assert (Dj : distinct (cl cells j)) by (apply HM; lia).
      destruct HG as (G1 & G2 & G3).
      destruct (num_shared (cl cells i) (cl cells j) =? 2) eqn:K.
      + apply Nat.eqb_eq in K.
        destruct (match_edges 0 (tri_edges (cl cells i)) (cl cells j)) as [m [s n]] eqn:E.
        destruct (match_edges_ok _ _ _ _ _ Di Dj K E) as (Hm & Hn & F & U).
        destruct (IH (set_mark (set_mark M i m (Some (j, s, n))) j n (Some (i, s, m)))
                    (fun c d => D c d \/ (c = i /\ d = j)) Hjs') as (M' & E' & G').
        * assert (S1 := sized_set M i m (Some (j, s, n)) G1 Hi).
          assert (S2 := sized_set _ j n (Some (i, s, m)) S1 (proj2 Hj)).
          assert (Q : forall c' m', mk (set_mark (set_mark M i m (Some (j, s, n))) j n (Some (i, s, m))) c' m' =
            if (c' =? j) && (m' =? n) then Some (i, s, m) else if (c' =? i) && (m' =? m) then Some (j, s, n) else mk M c' m').
          { intros c' m'. rewrite mk_set by (try exact S1; try exact Hn; lia).
            rewrite mk_set by (try exact G1; try exact Hm; lia). reflexivity. }
          split; [exact S2|]. split.
          -- intros c' m' Hc' Hm'. rewrite Q.
             destruct ((c' =? j) && (m' =? n)) eqn:B1.
             { apply andb_prop in B1. destruct B1 as [B1 B2]. apply Nat.eqb_eq in B1, B2. subst. cbn.
               split; [exact Hi|]. split; [exact Hm|]. split; [lia|]. apply fits_sym. exact F. }
             destruct ((c' =? i) && (m' =? m)) eqn:B2.
             { apply andb_prop in B2. destruct B2 as [B2 B3]. apply Nat.eqb_eq in B2, B3. subst. cbn.
               split; [lia|]. split; [exact Hn|]. split; [lia|]. exact F. }
             apply G2; assumption.
          -- intros c d m' n' HD Hc Hd Hm' Hn' L. rewrite Q.
             destruct ((c =? j) && (m' =? n)) eqn:B1; [discriminate|].
             destruct ((c =? i) && (m' =? m)) eqn:B2; [discriminate|].
             assert (D c d \/ D d c \/ (c = i /\ d = j) \/ (c = j /\ d = i)) as [HD'|[HD'|[[-> ->]|[-> ->]]]] by tauto.
             { apply (G3 c d m' n'); auto. }
             { apply (G3 c d m' n'); auto. }
             { destruct (U m' n' Hm' Hn' L) as [-> ->]. rewrite !Nat.eqb_refl in B2. discriminate. }
             { destruct (U n' m' Hn' Hm' (line_sym _ _ _ _ L)) as [-> ->]. rewrite !Nat.eqb_refl in B1. discriminate. }
        * exists M'. split; [exact E'|]. destruct G' as (G1' & G2' & G3'). split; [exact G1'|]. split; [exact G2'|].
          intros c d m' n' HD. apply G3'. cbn in HD. intuition.
      + apply Nat.eqb_neq in K. destruct (num_shared (cl cells i) (cl cells j) <=? 1) eqn:K1.
        * apply Nat.leb_le in K1.
          destruct (IH M (fun c d => D c d \/ (c = i /\ d = j)) Hjs') as (M' & E' & G').
          -- split; [exact G1|]. split; [exact G2|]. intros c d m' n' HD Hc Hd Hm' Hn' L.
             assert (D c d \/ D d c \/ (c = i /\ d = j) \/ (c = j /\ d = i)) as [HD'|[HD'|[[-> ->]|[-> ->]]]] by tauto.
             { apply (G3 c d m' n'); auto. }
             { apply (G3 c d m' n'); auto. }
             { pose proof (num_shared_line _ _ m' n' Di Hm' Hn' L). lia. }
             { pose proof (num_shared_line _ _ n' m' Di Hn' Hm' (line_sym _ _ _ _ L)). lia. }
          -- exists M'. split; [exact E'|]. destruct G' as (G1' & G2' & G3'). split; [exact G1'|]. split; [exact G2'|].
             intros c d m' n' HD. apply G3'. cbn in HD. intuition.
        * apply Nat.leb_gt in K1. exfalso. apply (HS i j); [exact Hi|lia|lia|].
          apply num_shared_all; [exact Di|lia].
  Qed.
  Lemma map_rows_ok is M (D : nat -> nat -> Prop) : (forall i, In i is -> i < N) -> good M D ->
    exists M', map_rows cells is M = Some M' /\ good M' (fun c j => D c j \/ (In c is /\ c < j < N)).
  Proof.
    revert M D. induction is as [|i is IH]; intros M D His HG.
    - exists M. split; [reflexivity|]. destruct HG as (G1 & G2 & G3). split; [exact G1|]. split; [exact G2|].
      intros c j m n H. apply G3. cbn in H. tauto.
    - cbn [map_rows]. fold N. destruct (map_row_ok i (seq (i + 1) (N - (i + 1))) M D) as (M1 & E1 & G1).
      + apply His. left. reflexivity.
      + intros j Hj. apply in_seq in Hj. lia.
      + exact HG.
      + rewrite E1. destruct (IH M1 _ (fun x Hx => His x (or_intror Hx)) G1) as (M2 & E2 & G2).
        exists M2. split; [exact E2|]. destruct G2 as (S1 & S2 & S3). split; [exact S1|]. split; [exact S2|].
        intros c j m n HD Hc Hj. apply S3; [|exact Hc|exact Hj].
        assert (forall a b, a < N -> b < N -> D a b \/ In a (i :: is) /\ a < b < N ->
          (D a b \/ a = i /\ In b (seq (i + 1) (N - (i + 1)))) \/ In a is /\ a < b < N) as A.
        { intros a b Ha Hb [H|[[<-|H] H']]; [auto| |auto]. left. right. split; [reflexivity|]. apply in_seq. lia. }
        destruct HD as [HD|HD]; [left|right]; apply A; assumption.
  Qed.
  Lemma element_map_good : exists M, element_map cells = Some M /\ describes_marks cells M.
  Proof.
    destruct (map_rows_ok (seq 0 N) (map (fun _ => [None; None; None]) cells) (fun _ _ => False)) as (M & E & G).
    - intros i Hi. apply in_seq in Hi. lia.
    - assert (S : forall c, c < N -> nth c (map (fun _ => [None; None; None]) cells) [] = ([None; None; None] : list mark)).
      { intros c Hc. rewrite (nth_indep _ _ [None; None; None]) by (rewrite map_length; exact Hc).
        apply (map_nth (fun _ => [None; None; None] : list mark) cells (0, 0, 0) c). }
      split; [split; [apply map_length|intros c Hc; rewrite S by exact Hc; reflexivity]|]. split.
      + intros c m Hc Hm. unfold mk. rewrite S by exact Hc. three m; exact I.
      + intros c j m n HD. cbn in HD. tauto.
    - exists M. split; [exact E|]. destruct G as ([L1 L2] & G2 & G3). split; [exact L1|].
      intros c Hc. split; [apply L2; exact Hc|]. intros m Hm. specialize (G2 c m Hc Hm). fold (mk M c m).
      destruct (mk M c m) as [[[j s] n]|] eqn:Em.
      + exact G2.
      + intros j n Hj Hn Hne L. apply (G3 c j m n); try assumption. fold N in Hc, Hj.
        assert (c < j \/ j < c) as [H|H] by lia; [left|right]; right; (split; [apply in_seq; lia|lia]).
  Qed.
End Map.

(* ---------- non-overlapping triangles ---------- *)
Local Open Scope R_scope.
Definition dir (t : tri) (m : nat) : nat * nat :=
  match m with 0%nat => (corner t 0, corner t 1) | 1%nat => (corner t 2, corner t 0) | _ => (corner t 1, corner t 2) end.
Definition third (t : tri) (m : nat) : nat := match m with 0%nat => corner t 2 | 1%nat => corner t 1 | _ => corner t 0 end.
Lemma area2_rot a b c : area2 b c a = area2 a b c.
Proof. unfold area2. ring. Qed.
Lemma ccw_dir pts t m : (m < 3)%nat -> ccw pts t ->
  0 < area2 (pt pts (fst (dir t m))) (pt pts (snd (dir t m))) (pt pts (third t m)).
Proof.
  destruct t as [[a b] c]. cbn [ccw]. intros Hm H. three m; cbn [dir fst snd third corner].
  - exact H.
  - rewrite <- area2_rot. exact H.
  - rewrite area2_rot. exact H.
Qed.
Lemma inside_dir pts t m q : (m < 3)%nat -> 
  let A := pt pts (fst (dir t m)) in let B := pt pts (snd (dir t m)) in let C := pt pts (third t m) in
  0 < area2 A B q -> 0 < area2 B C q -> 0 < area2 C A q -> inside pts t q.
Proof.
  destruct t as [[a b] c]. intros Hm. three m; cbn [dir fst snd third corner inside]; cbv zeta; auto.
Qed.
Lemma overlap_at A B C C' : 0 < area2 A B C -> 0 < area2 A B C' ->
  exists q, (0 < area2 A B q /\ 0 < area2 B C q /\ 0 < area2 C A q) /\ (0 < area2 A B q /\ 0 < area2 B C' q /\ 0 < area2 C' A q).
Proof.
  intros H H'. set (d := area2 A B C). set (d' := area2 A B C'). fold d in H. fold d' in H'.
  (* the point (1-e) (A+B)/2 + e C *)
  set (k1 := area2 B C' C). set (k2 := area2 C' A C).
  set (e := d' / (2 * (d' + Rabs k1 + Rabs k2))).
  pose proof (Rabs_pos k1) as P1. pose proof (Rabs_pos k2) as P2.
  assert (He : 0 < e) by (unfold e; apply Rdiv_lt_0_compat; lra).
  assert (Ee : e * (2 * (d' + Rabs k1 + Rabs k2)) = d') by (unfold e; field; lra).
  assert (He1 : e <= 1 / 2).
  { apply Rmult_le_reg_r with (2 * (d' + Rabs k1 + Rabs k2)); [lra|]. rewrite Ee. lra. }
  exists ((1 - e) * ((fst A + fst B) / 2) + e * fst C, (1 - e) * ((snd A + snd B) / 2) + e * snd C).
  set (q := (_, _)).
  assert (Q1 : area2 A B q = e * d) by (unfold q, d, area2; cbn [fst snd]; field).
  assert (Q2 : area2 B C q = (1 - e) / 2 * d) by (unfold q, d, area2; cbn [fst snd]; field).
  assert (Q3 : area2 C A q = (1 - e) / 2 * d) by (unfold q, d, area2; cbn [fst snd]; field).
  assert (Q4 : area2 B C' q = (1 - e) / 2 * d' + e * k1) by (unfold q, d', k1, area2; cbn [fst snd]; field).
  assert (Q5 : area2 C' A q = (1 - e) / 2 * d' + e * k2) by (unfold q, d', k2, area2; cbn [fst snd]; field).
  assert (A1 : - Rabs k1 <= k1) by (unfold Rabs; destruct (Rcase_abs k1); lra).
  assert (A2 : - Rabs k2 <= k2) by (unfold Rabs; destruct (Rcase_abs k2); lra).
  assert (M1 : e * - Rabs k1 <= e * k1) by (apply Rmult_le_compat_l; lra).
  assert (M2 : e * - Rabs k2 <= e * k2) by (apply Rmult_le_compat_l; lra).
  assert (M3 : 0 <= e * Rabs k1) by (apply Rmult_le_pos; lra).
  assert (M4 : 0 <= e * Rabs k2) by (apply Rmult_le_pos; lra).
  assert (M5 : 0 < e * d') by (apply Rmult_lt_0_compat; lra).
  assert (M6 : 0 < e * d) by (apply Rmult_lt_0_compat; lra).
  assert (M7 : 0 < (1 - e) / 2 * d) by (apply Rmult_lt_0_compat; lra).
  rewrite Q1, Q2, Q3, Q4, Q5.
  assert (X : e * d' + e * Rabs k1 + e * Rabs k2 = d' / 2) by lra.
  repeat split; lra.
Qed.
Lemma overlap pts t t' m n : (m < 3)%nat -> (n < 3)%nat -> ccw pts t -> ccw pts t' -> dir t m = dir t' n ->
  exists q, inside pts t q /\ inside pts t' q.
Proof.
  intros Hm Hn H H' E. pose proof (ccw_dir pts t m Hm H) as A. pose proof (ccw_dir pts t' n Hn H') as A'.
  rewrite <- E in A'. destruct (overlap_at _ _ _ _ A A') as (q & (Q1 & Q2 & Q3) & (Q4 & Q5 & Q6)).
  exists q. split; [apply (inside_dir pts t m); assumption|].
  apply (inside_dir pts t' n); [exact Hn| | |]; rewrite <- E; assumption.
Qed.
Lemma ccw_distinct pts t : ccw pts t -> distinct t.
Proof.
  destruct t as [[a b] c]. unfold ccw, distinct. cbn [corner]. intros H. 
  assert (Z1 : forall x y, area2 x x y = 0) by (intros; unfold area2; ring).
  assert (Z2 : forall x y, area2 x y x = 0) by (intros; unfold area2; ring).
  assert (Z3 : forall x y, area2 y x x = 0) by (intros; unfold area2; ring).
  repeat split; intros ->; rewrite ?Z1, ?Z2, ?Z3 in H; lra.
Qed.
Lemma line_dir t m t' n : (m < 3)%nat -> (n < 3)%nat -> line2 t m t' n -> dir t m = dir t' n \/ dir t m = swap (dir t' n).
Proof.
  intros Hm Hn [H|H]; three m; three n; cbn in H |- *; injection H as H1 H2; rewrite ?H1, ?H2; auto.
Qed.
Lemma mesh_manifold pts cells : mesh_ok pts cells -> manifold cells /\ simple cells.
Proof.
  intros [HC HO].
  assert (NO : forall c j m n, (c < length cells)%nat -> (j < length cells)%nat -> c <> j -> (m < 3)%nat -> (n < 3)%nat ->
     dir (cl cells c) m <> dir (cl cells j) n).
  { intros c j m n Hc Hj Hne Hm Hn E.
    destruct (overlap pts (cl cells c) (cl cells j) m n Hm Hn (HC c Hc) (HC j Hj) E) as (q & Q1 & Q2).
    exact (HO c j q Hc Hj Hne Q1 Q2). }
  split; [split|].
  - intros c Hc. apply (ccw_distinct pts). apply HC. exact Hc.
  - intros c m j n j' n' Hc Hj Hj' Hm Hn Hn' N1 N2 L1 L2.
    destruct (Nat.eq_dec j j') as [E|E]; [exact E|exfalso].
    destruct (line_dir _ _ _ _ Hm Hn L1) as [E1|E1]; [exact (NO c j m n Hc Hj (not_eq_sym N1) Hm Hn E1)|].
    destruct (line_dir _ _ _ _ Hm Hn' L2) as [E2|E2]; [exact (NO c j' m n' Hc Hj' (not_eq_sym N2) Hm Hn' E2)|].
    apply (NO j j' n n' Hj Hj' E Hn Hn'). rewrite E1 in E2. unfold swap in E2.
    destruct (dir (cl cells j) n), (dir (cl cells j') n'). cbn in E2. injection E2 as -> ->. reflexivity.
  - intros c j Hc Hj Hne H.
    pose proof (ccw_distinct _ _ (HC c Hc)) as D. pose proof (HC c Hc) as C1. pose proof (HC j Hj) as C2.
    destruct (H 0%nat) as (k0 & K0 & E0); [lia|]. destruct (H 1%nat) as (k1 & K1 & E1); [lia|]. destruct (H 2%nat) as (k2 & K2 & E2); [lia|].
    assert (NO' := fun m n => NO c j m n Hc Hj Hne). clear NO HO H.
    destruct (cl cells c) as [[a b] d], (cl cells j) as [[x y] z]. unfold distinct in D. cbn [ccw corner] in *.
    assert (AO : area2 (pt pts a) (pt pts d) (pt pts b) = - area2 (pt pts a) (pt pts b) (pt pts d)) by (unfold area2; ring).
    assert (AO2 : forall u v w, area2 u w v = - area2 u v w) by (intros; unfold area2; ring).
    assert (AO3 : forall u v w, area2 v u w = - area2 u v w) by (intros; unfold area2; ring).
    assert (AO4 : forall u v w, area2 w v u = - area2 u v w) by (intros; unfold area2; ring).
    three k0; three k1; three k2; cbn in E0, E1, E2; subst; try (exfalso; tauto).
    + apply (NO' 0%nat 0%nat); [lia|lia|reflexivity].
    + rewrite AO2 in C2. lra.
    + rewrite AO3 in C2. lra.
    + apply (NO' 0%nat 2%nat); [lia|lia|reflexivity].
    + apply (NO' 0%nat 1%nat); [lia|lia|reflexivity].
    + rewrite AO4 in C2. lra.
Qed.
(* the cells after the check of the orientation *)
Lemma oriented_ok pts t t' : oriented pts t = Some t' ->
  ccw pts t' /\ (t' = t \/ t' = (corner t 0, corner t 2, corner t 1)).
Proof.
  destruct t as [[a b] c]. cbn [oriented]. intros H.
  destruct (nth_error pts a) as [p0|] eqn:Ea; [|discriminate].
  destruct (nth_error pts b) as [p1|] eqn:Eb; [|discriminate].
  destruct (nth_error pts c) as [p2|] eqn:Ec; [|discriminate].
  assert (Pa : pt pts a = p0) by (unfold pt; apply nth_error_nth; exact Ea).
  assert (Pb : pt pts b = p1) by (unfold pt; apply nth_error_nth; exact Eb).
  assert (Pc : pt pts c = p2) by (unfold pt; apply nth_error_nth; exact Ec).
  assert (O : orientation p0 p1 p2 = - area2 p0 p1 p2) by (unfold orientation, area2; ring).
  destruct (Rlt_dec 0 (orientation p0 p1 p2)) as [L|L].
  - injection H as <-. split; [|right; reflexivity]. cbn [ccw]. rewrite Pa, Pb, Pc.
    replace (area2 p0 p2 p1) with (- area2 p0 p1 p2) by (unfold area2; ring). lra.
  - destruct (Rlt_dec (orientation p0 p1 p2) 0) as [L'|L']; [|discriminate].
    injection H as <-. split; [|left; reflexivity]. cbn [ccw]. rewrite Pa, Pb, Pc. lra.
Qed.
Lemma oriented_none pts a b c : (a < length pts)%nat -> (b < length pts)%nat -> (c < length pts)%nat ->
  (oriented pts (a, b, c) = None <-> area2 (pt pts a) (pt pts b) (pt pts c) = 0).
Proof.
  intros Ha Hb Hc. cbn [oriented].
  destruct (nth_error pts a) as [p0|] eqn:Ea; [|apply nth_error_None in Ea; lia].
  destruct (nth_error pts b) as [p1|] eqn:Eb; [|apply nth_error_None in Eb; lia].
  destruct (nth_error pts c) as [p2|] eqn:Ec; [|apply nth_error_None in Ec; lia].
  assert (Pa : pt pts a = p0) by (unfold pt; apply nth_error_nth; exact Ea).
  assert (Pb : pt pts b = p1) by (unfold pt; apply nth_error_nth; exact Eb).
  assert (Pc : pt pts c = p2) by (unfold pt; apply nth_error_nth; exact Ec).
  rewrite Pa, Pb, Pc.
  assert (O : orientation p0 p1 p2 = - area2 p0 p1 p2) by (unfold orientation, area2; ring).
  destruct (Rlt_dec 0 (orientation p0 p1 p2)) as [L|L]; [split; [discriminate|lra]|].
  destruct (Rlt_dec (orientation p0 p1 p2) 0) as [L'|L']; [split; [discriminate|lra]|]. split; [lra|reflexivity].
Qed.
