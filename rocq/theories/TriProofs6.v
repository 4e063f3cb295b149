From Coq Require Import List Arith ZArith Bool Lia.
From Verif Require Import Prelude RingSum TriModel TriSpec TriProofs TriProofs2 TriProofs3 TriProofs4 TriProofs5.
Import ListNotations.

(* ---------- gathering vectors ---------- *)
Lemma znth_ravel a b (A : arr2) i j : i < a -> j < b -> znth (ravelF a b A) (i + j * a) = A i j.
Proof.
  intros Hi Hj. unfold znth, ravelF. destruct (grid_facts a b) as (_ & _ & G). specialize (G i j Hi Hj).
  apply nth_error_nth. rewrite nth_error_map, G. reflexivity.
Qed.
Lemma len_ravel a b A : length (ravelF a b A) = b * a.
Proof. unfold ravelF. rewrite map_length. apply (grid_facts a b). Qed.
Lemma gathering0_at p A n : node_ok p n ->
  znth (gathering0 p A) (Z.to_nat (dofn p n)) = match n with Sing => A 0 0 | Nd i j => A i j end.
Proof.
  destruct n as [|i j]; cbn [node_ok dofn]; intros H; [reflexivity|]. destruct j as [|j]; [lia|]. rewrite dofn_Nd, Nat2Z.id.
  cbn [Nat.add]. unfold gathering0. cbn [znth nth]. change (nth ?k ?l (-1)%Z) with (znth l k).
  rewrite znth_ravel by lia. f_equal. lia.
Qed.
Lemma gathering0_len p A : length (gathering0 p A) = tnb0 p.
Proof. unfold gathering0. cbn [length]. rewrite len_ravel. unfold tnb0. lia. Qed.
Lemma gathering1_at o p A e : edge_ok p e -> znth (gathering1 o p A) (Z.to_nat (dofe o p e)) = val1 A e.
Proof.
  assert (X : forall l l' k, k < length l -> znth (l ++ l') k = znth l k) by (intros; apply app_nth1; assumption).
  assert (Y : forall l l' k, znth (l ++ l') (length l + k) = znth l' k).
  { intros. unfold znth. rewrite app_nth2 by lia. f_equal. lia. }
  destruct e as [i j|i j]; cbn [edge_ok]; intros H; unfold gathering1.
  - destruct j as [|j]; [lia|]. rewrite dofe_Dx, Nat2Z.id. pose proof (lin_lt p p i j ltac:(lia) ltac:(lia)). destruct o.
    + replace (p * (p + 1)) with (length (ravelF (p + 1) p (fst A))) by (rewrite len_ravel; lia).
      rewrite Y, znth_ravel by lia. cbn [val1]. f_equal. lia.
    + cbn [Nat.add]. rewrite X by (rewrite len_ravel; lia). rewrite znth_ravel by lia. cbn [val1]. f_equal. lia.
  - rewrite dofe_Dy, Nat2Z.id. pose proof (lin_lt (p + 1) p i j ltac:(lia) ltac:(lia)). destruct o.
    + cbn [Nat.add]. rewrite X by (rewrite len_ravel; lia). rewrite znth_ravel by lia. reflexivity.
    + replace (p * p) with (length (ravelF p p (snd A))) by (rewrite len_ravel; lia).
      rewrite Y, znth_ravel by lia. reflexivity.
Qed.
Lemma gathering1_len o p A : length (gathering1 o p A) = tnb1 p.
Proof. unfold gathering1, tnb1. destruct o; rewrite app_length, !len_ravel; lia. Qed.
Lemma gathering2_at p c k : k < p * p -> znth (gathering2 p c) k = Z.of_nat (c * (p * p) + k).
Proof.
  intros H. unfold gathering2, znth. rewrite (nth_indep _ _ (Z.of_nat 0)) by (rewrite map_length, seq_length; exact H).
  rewrite map_nth, seq_nth by exact H. reflexivity.
Qed.

(* ---------- where the nodes are ---------- *)
Definition whn (p : nat) (cells : list tri) (c : nat) (n : tnode) : loc0 :=
  match n with Sing => where0 p cells c 0 0 | Nd i j => where0 p cells c i j end.
Lemma whn_at p cells c i j : whn p cells c (node_at i j) = where0 p cells c i j.
Proof. destruct j; reflexivity. Qed.

Section Mesh.
  Variables (conds : list (nat * (point -> bool))) (pts : list point) (cells0 cells : list tri) (M : smap).
  Hypothesis HE : make_mesh conds pts cells0 = Some (cells, M).
  Hypothesis HO : no_overlap pts cells.
  Lemma made : oriented_cells pts cells0 = Some cells /\
    exists E, element_map cells = Some E /\ parse_boundaries conds pts cells E = Some M.
  Proof.
    clear HO. unfold make_mesh in HE. destruct (oriented_cells pts cells0) as [cs|]; [|discriminate]. cbn [bind] in HE.
    destruct (element_map cs) as [E|] eqn:E1; [|discriminate]. cbn [bind] in HE.
    destruct (parse_boundaries conds pts cs E) as [M'|] eqn:E2; [|discriminate]. cbn [bind] in HE. injection HE as <- <-.
    split; [reflexivity|]. exists E. auto.
  Qed.
  Lemma made_mesh : mesh_ok pts cells.
  Proof.
    destruct made as [E _]. apply oriented_cells_ok in E. destruct E as [L E]. split; [|exact HO].
    intros c Hc. apply E. lia.
  Qed.
  Lemma made_manifold : manifold cells /\ simple cells.
  Proof. apply (mesh_manifold pts). exact made_mesh. Qed.
  Lemma made_describes : describes cells M /\
    forall c m b, c < length cells -> m < 3 -> side_at M c m = SB b -> one_condition conds pts (cl cells c) m b.
  Proof.
    destruct made as [_ (E & E1 & E2)]. destruct made_manifold as [HM HS].
    destruct (element_map_good cells HM HS) as (E' & E3 & G). rewrite E1 in E3. injection E3 as <-.
    exact (parse_ok conds pts cells E M G E2).
  Qed.
End Mesh.
(* counterclockwise edges: +1, clockwise: -1 *)
Definition turn (m : nat) : Z := match m with 0 => 1%Z | _ => (-1)%Z end.
Lemma mesh_coherent pts cells c m j n (s : bool) : mesh_ok pts cells -> c < length cells -> j < length cells -> m < 3 -> n < 3 -> c <> j ->
  ends (cl cells c) m = (if s then ends (cl cells j) n else swap (ends (cl cells j) n)) ->
  (turn m * turn n = if s then -1 else 1)%Z.
Proof.
  intros [HC HO] Hc Hj Hm Hn Hne H.
  assert (ND : dir (cl cells c) m <> dir (cl cells j) n).
  { intros E. destruct (overlap pts (cl cells c) (cl cells j) m n Hm Hn (HC c Hc) (HC j Hj) E) as (q & Q1 & Q2).
    exact (HO c j q Hc Hj Hne Q1 Q2). }
  clear HO. unfold swap in *. destruct s; three m; three n; cbn [turn dir ends fst snd] in *; try reflexivity;
  exfalso; apply ND; congruence.
Qed.

(* ---------- the transition matrices ---------- *)
Lemma edge_dofs1_in o p m e : 1 <= p -> m < 3 -> edge_ok p e -> (In (dofe o p e) (edge_dofs1 o p m) <-> on_edge p m e).
Proof.
  intros Hp Hm He. destruct (numbers_edge o p) as (_ & IE & _).
  assert (L : edge_dofs1 o p m = map (fun k => dofe o p (epos1 p m k)) (seq 0 p)) by (three m; reflexivity).
  rewrite L, in_map_iff. split.
  - intros (k & E & Hk). apply in_seq in Hk. apply IE in E; [|apply epos1_sel; lia|exact He]. rewrite <- E.
    apply epos1_sel; lia.
  - intros S. destruct (sel1_epos p m e Hm (conj He S)) as [Hk E]. exists (along1 e). split; [rewrite <- E; reflexivity|apply in_seq; lia].
Qed.
Definition minus (o : orient) (M : smap) (c m : nat) : bool := existsb (Nat.eqb m) (minus_edges o M c).
Lemma transition_on o p M c m e : 1 <= p -> m < 3 -> edge_ok p e -> on_edge p m e ->
  transition o p M c (Z.to_nat (dofe o p e)) = if minus o M c m then (-1)%Z else 1%Z.
Proof.
  intros Hp Hm He S. unfold transition, minus. pose proof (proj1 (numbers_edge o p) e He) as R. rewrite Z2Nat.id by lia.
  match goal with |- (if ?b then _ else _) = (if ?b' then _ else _) => assert (b = b') as -> end; [|reflexivity].
  apply Bool.eq_iff_eq_true. rewrite !existsb_exists. split.
  - intros (k & Hk & Hx). exists k. split; [exact Hk|]. apply existsb_exists in Hx. destruct Hx as (z & Hz & Ez).
    apply Z.eqb_eq in Ez. subst z. unfold minus_edges in Hk. apply filter_In in Hk. destruct Hk as [Hk _]. apply in_seq in Hk.
    apply edge_dofs1_in in Hz; [|exact Hp|lia|exact He]. apply Nat.eqb_eq.
    destruct e as [i j|i j]; cbn in He; three m; three k; cbn in S, Hz; try tauto; lia.
  - intros (k & Hk & Ek). apply Nat.eqb_eq in Ek. subst k. exists m. split; [exact Hk|]. apply existsb_exists.
    exists (dofe o p e). split; [apply edge_dofs1_in; assumption|apply Z.eqb_refl].
Qed.
Lemma transition_in o p M c e : 1 <= p -> edge_ok p e -> (forall m, m < 3 -> ~ on_edge p m e) ->
  transition o p M c (Z.to_nat (dofe o p e)) = 1%Z.
Proof.
  intros Hp He S. unfold transition. pose proof (proj1 (numbers_edge o p) e He) as R. rewrite Z2Nat.id by lia.
  destruct (existsb _ (minus_edges o M c)) eqn:B; [|reflexivity]. exfalso. apply existsb_exists in B. destruct B as (k & Hk & Hx).
  apply existsb_exists in Hx. destruct Hx as (z & Hz & Ez). apply Z.eqb_eq in Ez. subst z.
  unfold minus_edges in Hk. apply filter_In in Hk. destruct Hk as [Hk _]. apply in_seq in Hk.
  apply edge_dofs1_in in Hz; [|exact Hp|lia|exact He]. apply (S k); [lia|exact Hz].
Qed.
Lemma transition_sq o p M c k : (transition o p M c k * transition o p M c k = 1)%Z.
Proof. unfold transition. destruct (existsb _ _); reflexivity. Qed.
Lemma minus_iff o M c m : m < 3 -> minus o M c m =
  match side_at M c m with
  | SB _ => false
  | SI other s n => match o with Inner => negb s && (other <? c) | Outer => (other <? c) && ((n =? m) || (negb (m =? 1) && negb (n =? 1))) end
  end.
Proof.
  intros Hm. unfold minus, minus_edges. apply Bool.eq_iff_eq_true. rewrite existsb_exists. split.
  - intros (k & Hk & E). apply Nat.eqb_eq in E. subst k. apply filter_In in Hk. apply Hk.
  - intros H. exists m. split; [|apply Nat.eqb_refl]. apply filter_In. split; [apply in_seq; lia|exact H].
Qed.
Definition out (m : nat) : Z := match m with 1 => (-1)%Z | _ => 1%Z end.
Section Signs.
  Variables (p : nat) (pts : list point) (cells : list tri) (M : smap).
  Hypothesis Hp : 1 <= p.
  Hypothesis HK : mesh_ok pts cells.
  Hypothesis HD : describes cells M.
  Let N := length cells.
  Let HM : manifold cells := proj1 (mesh_manifold pts cells HK).
  Lemma where1_inj c e e' : c < N -> edge_ok p e -> edge_ok p e' -> where1 p cells c e = where1 p cells c e' -> e = e'.
  Proof.
    intros Hc He He' E.
    destruct (where1_cases p cells c e Hp He) as [(m & Hm & S)|[E1 _]].
    - destruct (sel1_epos p m e Hm S) as [Hk Ee]. set (k := along1 e) in *.
      rewrite Ee, where1_epos in E by assumption.
      destruct (where1_cases p cells c e' Hp He') as [(n & Hn & S')|[E1 _]].
      2: { destruct (on_seg_SE p (fst (ends (cl cells c) m)) (snd (ends (cl cells c) m)) k) as (x & y & z & EL). congruence. }
      destruct (sel1_epos p n e' Hn S') as [Hk' Ee']. set (k' := along1 e') in *.
      rewrite Ee', where1_epos in E by assumption.
      pose proof (ends_ne p cells Hp HM c m Hc Hm) as D. pose proof (ends_ne p cells Hp HM c n Hc Hn) as D'.
      assert (n = m) as Enm.
      { apply (ends_inj p cells Hp HM c m n Hc Hm Hn).
        destruct (on_seg_inj p _ _ _ _ _ _ D D' E) as [(A1 & A2 & _)|(A1 & A2)];
        rewrite (surjective_pairing (ends (cl cells c) n)), (surjective_pairing (ends (cl cells c) m)); cbn [fst snd] in *; unfold swap; cbn [fst snd]; rewrite A1, A2; auto. }
      rewrite Enm in *. destruct (on_seg_inj p _ _ _ _ _ _ D D' E) as [(_ & _ & A3)|(A1 & A2)]; [|congruence].
      rewrite Ee, Ee', (A3 Hk Hk'). reflexivity.
    - rewrite E1 in E. symmetry in E. apply (where1_SIn p cells Hp) in E. destruct E as (_ & E & _). exact E.
  Qed.
  (* two positions of different cells at the same place lie on matching sides *)
  Lemma shared_sides c e c' e' : c < N -> c' < N -> c <> c' -> edge_ok p e -> edge_ok p e' ->
    where1 p cells c e = where1 p cells c' e' ->
    exists m n (s : bool) k k', m < 3 /\ n < 3 /\ k < p /\ e = epos1 p m k /\ e' = epos1 p n k' /\ k' = (if s then k else p - 1 - k) /\
      side_at M c m = SI c' s n /\ side_at M c' n = SI c s m /\ fits (cl cells c) m (cl cells c') s n.
  Proof.
    intros Hc Hc' Hne He He' E.
    destruct (where1_cases p cells c e Hp He) as [(m & Hm & S)|[E1 _]].
    2: { rewrite E1 in E. symmetry in E. apply (where1_SIn p cells Hp) in E. destruct E as [E _]. congruence. }
    destruct (sel1_epos p m e Hm S) as [Hk Ee]. set (k := along1 e) in *.
    rewrite Ee, where1_epos in E by assumption. symmetry in E.
    destruct (where1_cases p cells c' e' Hp He') as [(n & Hn & S')|[E1 _]].
    2: { destruct (on_seg_SE p (fst (ends (cl cells c) m)) (snd (ends (cl cells c) m)) k) as (x & y & z & EL). congruence. }
    destruct (sel1_epos p n e' Hn S') as [Hk' Ee']. set (k' := along1 e') in *.
    rewrite Ee', where1_epos in E by assumption.
    pose proof (ends_ne p cells Hp HM c m Hc Hm) as D. pose proof (ends_ne p cells Hp HM c' n Hc' Hn) as D'.
    assert (exists s : bool, fits (cl cells c) m (cl cells c') s n /\ k' = if s then k else p - 1 - k) as (s & F & Ek).
    { destruct (on_seg_inj p _ _ _ _ _ _ D' D E) as [(A1 & A2 & A3)|(A1 & A2)].
      - exists true. split; [|apply A3; assumption]. unfold fits.
        rewrite (surjective_pairing (ends (cl cells c) m)), (surjective_pairing (ends (cl cells c') n)). congruence.
      - exists false. split.
        + unfold fits, swap. rewrite (surjective_pairing (ends (cl cells c) m)). congruence.
        + rewrite <- (on_seg_swap p (fst (ends (cl cells c) m)) _ k D Hk) in E. rewrite A1, A2 in E.
          destruct (on_seg_inj p _ _ _ _ _ _ (not_eq_sym D) (not_eq_sym D) E) as [(_ & _ & A3)|(B1 & _)]; [|congruence].
          apply A3; lia. }
    assert (U : forall a b x y (s : bool), a < N -> b < N -> a <> b -> x < 3 -> y < 3 -> fits (cl cells a) x (cl cells b) s y -> side_at M a x = SI b s y).
    { clear - HD HK HM Hp. intros a b x y s Ha Hb Hab Hx Hy F. destruct HD as [_ HD']. specialize (HD' a x Ha Hx).
      assert (SL : same_line cells a x b y) by (unfold same_line, fits in *; destruct s; auto).
      destruct (side_at M a x) as [nm|b' s' y'].
      - destruct (HD' b y Hb Hy (not_eq_sym Hab) SL).
      - destruct HD' as (Hb' & Hy' & Hne' & F').
        assert (SL' : same_line cells a x b' y') by (unfold same_line; destruct s'; auto).
        assert (b' = b) as -> by (destruct HM as [_ HM2]; apply (HM2 a x b' y' b y); auto).
        assert (y' = y) as ->.
        { apply (ends_inj p cells Hp HM b y y' Hb Hy Hy'). unfold fits in F. rewrite F in F'.
          unfold swap in *. clear - F'. destruct (ends (cl cells b) y') as [u v], (ends (cl cells b) y) as [u' v']. cbn [fst snd] in *.
          destruct s, s'; injection F' as -> ->; auto. }
        assert (s' = s) as ->; [|reflexivity]. unfold fits in F. rewrite F in F'.
        pose proof (ends_ne p cells Hp HM b y Hb Hy) as Dy'. unfold swap in *.
        destruct (ends (cl cells b) y) as [u v]. cbn [fst snd] in *. destruct s, s'; try reflexivity; congruence. }
    exists m, n, s, k, k'. split; [exact Hm|]. split; [exact Hn|]. split; [exact Hk|]. split; [exact Ee|]. split; [exact Ee'|].
    split; [exact Ek|]. split; [apply U; assumption|]. split; [apply U; auto|exact F].
    apply fits_sym. exact F.
  Qed.
  (* the product of the two signs at a shared side *)
  Lemma sign_product o c c' m n (s : bool) : c < N -> c' < N -> c <> c' -> m < 3 -> n < 3 ->
    side_at M c m = SI c' s n -> side_at M c' n = SI c s m -> fits (cl cells c) m (cl cells c') s n ->
    ((if minus o M c m then -1 else 1) * (if minus o M c' n then -1 else 1) =
     match o with Inner => if s then 1 else -1 | Outer => - (out m * out n) end)%Z.
  Proof.
    intros Hc Hc' Hne Hm Hn E E' F. rewrite !minus_iff by assumption. rewrite E, E'.
    destruct o.
    - destruct (Nat.ltb_spec c' c), (Nat.ltb_spec c c'); try lia; three m; three n; reflexivity.
    - destruct (Nat.ltb_spec c' c), (Nat.ltb_spec c c'); try lia; destruct s; reflexivity.
  Qed.
  (* the nodes at the ends of the k-th segment of side m *)
  Definition pnode (m k : nat) : tnode := match m with 0 => node_at p k | 1 => node_at 0 k | _ => node_at k p end.
  Lemma start_pnode m k : m < 3 -> start (epos1 p m k) = pnode m k /\ stop (epos1 p m k) = pnode m (S k).
  Proof. intros Hm. three m; cbn [epos1 start stop pnode]; rewrite ?Nat.add_1_r; auto. Qed.
  Definition on_lineX (a b k : nat) : loc0 := if k =? 0 then LV a else if k =? p then LV b else on_line p a b k.
  Lemma whn_pnode c m k : m < 3 -> k <= p -> whn p cells c (pnode m k) = on_lineX (fst (ends (cl cells c) m)) (snd (ends (cl cells c) m)) k.
  Proof.
    intros Hm Hk. unfold on_lineX.
    assert (p =? 0 = false) as E0 by (apply Nat.eqb_neq; lia).
    destruct (Nat.eqb_spec k 0) as [->|K0].
    - three m; cbn [pnode ends fst snd]; rewrite whn_at; unfold where0; rewrite ?E0, ?Nat.eqb_refl; reflexivity.
    - destruct (Nat.eqb_spec k p) as [->|Kp].
      + three m; cbn [pnode ends fst snd]; rewrite whn_at; unfold where0; rewrite ?E0, ?Nat.eqb_refl; reflexivity.
      + replace k with ((k - 1) + 1) at 2 by lia. rewrite <- (where0_epos p cells c m (k - 1) Hm ltac:(lia)).
        three m; cbn [pnode epos fst snd]; rewrite whn_at; f_equal; lia.
  Qed.
  Lemma on_lineX_swap a b k : a <> b -> k <= p -> on_lineX b a (p - k) = on_lineX a b k.
  Proof.
    intros Hab Hk. unfold on_lineX. destruct (Nat.eqb_spec (p - k) 0), (Nat.eqb_spec k p), (Nat.eqb_spec k 0), (Nat.eqb_spec (p - k) p); try lia; try reflexivity.
    apply on_line_swap; [exact Hab|lia].
  Qed.
  Lemma whn_shared c c' m n (s : bool) k : c < N -> c' < N -> m < 3 -> n < 3 -> k <= p -> fits (cl cells c) m (cl cells c') s n ->
    whn p cells c' (pnode n (if s then k else p - k)) = whn p cells c (pnode m k).
  Proof.
    intros Hc Hc' Hm Hn Hk F. rewrite !whn_pnode by (try assumption; destruct s; lia).
    unfold fits in F. rewrite F. destruct s; [reflexivity|]. unfold swap. cbn [fst snd].
    rewrite <- (on_lineX_swap _ _ k); [reflexivity| |exact Hk]. apply not_eq_sym. apply (ends_ne p cells Hp HM c' n Hc' Hn).
  Qed.
  (* the coboundary of a continuous 0-form is continuous *)
  Lemma coboundary0_agree o (g : loc0 -> Z) (f : nat -> nat -> Z) c e c' e' :
    (forall c n, c < N -> node_ok p n -> f c (Z.to_nat (dofn p n)) = g (whn p cells c n)) ->
    c < N -> c' < N -> edge_ok p e -> edge_ok p e' -> where1 p cells c e = where1 p cells c' e' ->
    zsum (tnb0 p) (fun k => (incidence0 o p M c (Z.to_nat (dofe o p e)) k * f c k)%Z) =
    zsum (tnb0 p) (fun k => (incidence0 o p M c' (Z.to_nat (dofe o p e')) k * f c' k)%Z).
  Proof.
    intros Hg Hc Hc' He He' E.
    assert (R : forall c e, c < N -> edge_ok p e -> zsum (tnb0 p) (fun k => (incidence0 o p M c (Z.to_nat (dofe o p e)) k * f c k)%Z) =
      (transition o p M c (Z.to_nat (dofe o p e)) * (sgn0 o e * (g (whn p cells c (stop e)) - g (whn p cells c (start e)))))%Z).
    { clear - Hg Hp HM. intros c e Hc He. destruct (start_ok p e He) as (O1 & O2 & _). rewrite <- !Hg by assumption. rewrite <- E0_row by exact He.
      rewrite <- zsum_mul. apply zsum_ext. intros k _. unfold incidence0. ring. }
    rewrite !R by assumption.
    destruct (Nat.eq_dec c c') as [<-|Hne].
    - assert (e = e') as <-; [|reflexivity].
      exact (where1_inj c e e' Hc He He' E).
    - destruct (shared_sides c e c' e' Hc Hc' Hne He He' E) as (m & n & s & k & k' & Hm & Hn & Hk & -> & -> & Ek & S1 & S2 & F).
      rewrite (transition_on o p M c m) by (try assumption; apply epos1_sel; assumption).
      assert (Hk' : k' < p) by (subst k'; destruct s; lia).
      rewrite (transition_on o p M c' n) by (try assumption; apply epos1_sel; assumption).
      pose proof (sign_product o c c' m n s Hc Hc' Hne Hm Hn S1 S2 F) as T.
      pose proof (mesh_coherent pts cells c m c' n s HK Hc Hc' Hm Hn Hne F) as C.
      destruct (start_pnode m k Hm) as [-> ->]. destruct (start_pnode n k' Hn) as [-> ->].
      rewrite <- (whn_shared c c' m n s k), <- (whn_shared c c' m n s (S k)) by (try assumption; lia).
      assert (G : (g (whn p cells c' (pnode n (if s then S k else p - S k))) - g (whn p cells c' (pnode n (if s then k else p - k))) =
        (if s then 1 else -1) * (g (whn p cells c' (pnode n (S k'))) - g (whn p cells c' (pnode n k'))))%Z).
      { subst k'. destruct s; [ring|]. replace (S (p - 1 - k)) with (p - k) by lia. replace (p - 1 - k) with (p - S k) by lia. ring. }
      rewrite G. clear G.
      assert (Q1 : sgn0 o (epos1 p m k) = (match o with Inner => 1 | Outer => out m * turn m end)%Z) by (three m; destruct o; reflexivity).
      assert (Q2 : sgn0 o (epos1 p n k') = (match o with Inner => 1 | Outer => out n * turn n end)%Z) by (three n; destruct o; reflexivity).
      rewrite Q1, Q2. clear Q1 Q2.
      set (X := (_ - _)%Z).
      destruct (minus o M c m), (minus o M c' n), o, s; three m; three n; cbn [out turn] in *; try lia.
  Qed.
End Signs.
