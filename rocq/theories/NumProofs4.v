(** Proofs about NumModel: boxes of elements. *)
From Coq Require Import List Arith Bool Lia Relations.
From Verif Require Import Prelude PreludeProofs SpaceModel SpaceSpec SpaceProofs MeshModel MeshSpec MeshMapModel MeshMapProofs2 TraceModel TraceProofs TraceProofs2 TraceProofs3 NumModel NumSpec NumProofs NumProofs2 NumProofs3.
Import ListNotations.

(** * coordinates *)
Lemma mod_upto u m : 1 <= m -> u <= m -> u mod m = if u =? m then 0 else u.
Proof. intros H L. destruct (Nat.eqb_spec u m) as [->|N]; [apply Nat.mod_same; lia|apply Nat.mod_small; lia]. Qed.
Lemma wrap_eq m u v : 1 <= m -> u <= m -> v <= m -> u mod m = v mod m -> u = v \/ (u = 0 /\ v = m) \/ (u = m /\ v = 0).
Proof. intros H Hu Hv. rewrite !mod_upto by assumption. destruct (Nat.eqb_spec u m), (Nat.eqb_spec v m); lia. Qed.
Lemma coord_bound n q X i : X < n -> i <= q -> X * q + i <= n * q.
Proof. intros H L. assert ((X + 1) * q <= n * q) by (apply Nat.mul_le_mono_r; lia). lia. Qed.
Lemma coord_cases n q per X i Y j : 1 <= q -> X < n -> Y < n -> i <= q -> j <= q -> coord n q per X i = coord n q per Y j ->
  X * q + i = Y * q + j \/ (per = true /\ X = 0 /\ i = 0 /\ Y + 1 = n /\ j = q) \/ (per = true /\ Y = 0 /\ j = 0 /\ X + 1 = n /\ i = q).
Proof.
  intros Hq HX HY Hi Hj. unfold coord. destruct per; [|auto]. intros E.
  assert (BX := coord_bound n q X i HX Hi). assert (BY := coord_bound n q Y j HY Hj).
  apply wrap_eq in E; [|nia|assumption|assumption]. destruct E as [E|[[E1 E2]|[E1 E2]]]; [auto| |]; right; [left|right].
  - assert (X = 0) by nia. assert (i = 0) by nia. assert (Y + 1 = n) by nia. assert (j = q) by nia. auto.
  - assert (Y = 0) by nia. assert (j = 0) by nia. assert (X + 1 = n) by nia. assert (i = q) by nia. auto.
Qed.
Lemma coord_same n q (per : bool) X i j : 1 <= q -> X < n -> (per = true -> 2 <= n) -> i <= q -> j <= q -> coord n q per X i = coord n q per X j -> i = j.
Proof.
  intros Hq HX Hn Hi Hj E. apply coord_cases in E; auto. destruct E as [E|[(P & A & B & C & D)|(P & A & B & C & D)]]; [lia| |]; specialize (Hn P); lia.
Qed.
Lemma coord_less n q per X i Y j : 1 <= q -> X < Y -> Y < n -> i <= q -> j <= q -> coord n q per X i = coord n q per Y j ->
  (Y = X + 1 /\ i = q /\ j = 0) \/ (per = true /\ X = 0 /\ i = 0 /\ Y + 1 = n /\ j = q).
Proof.
  intros Hq HX HY Hi Hj E. apply coord_cases in E; auto; try lia. destruct E as [E|[E|(P & A & B & C & D)]]; [left|right; exact E|lia].
  assert (Y = X + 1) by nia. subst Y. split; [reflexivity|]. nia.
Qed.
Lemma coord_step n q per X : coord n q per (X + 1) 0 = coord n q per X q.
Proof. unfold coord. destruct per; [f_equal|]; lia. Qed.
Lemma coord_wrap n q X Y : 1 <= q -> X + 1 = n -> Y = 0 -> coord n q true X q = coord n q true Y 0.
Proof. intros Hq HX ->. unfold coord. replace (X * q + q) with (n * q) by nia. rewrite Nat.mod_same by nia. symmetry. apply Nat.mod_small. nia. Qed.

(** * cells by axis *)
Lemma cell_axes p ts x : SpaceProofs.types_ok p ts -> (In x (cells p ts) <-> length x = length p /\ In (map fst x) ts /\ forall a, a < length p -> ok_factor (nth a p 0) (nth a x (false, 0))).
Proof.
  intros T. rewrite in_cells by exact T. split.
  - intros (t & Ht & E & F). assert (L := SpaceProofs.F2_length _ _ _ F). refine (conj (eq_sym L) (conj _ _)); [rewrite E; exact Ht|].
    clear - F. induction F as [|n f p x A F IH]; intros [|a] H; cbn in *; try lia; [exact A|]. apply IH. lia.
  - intros (L & Ht & F). exists (map fst x). split; [exact Ht|]. split; [reflexivity|].
    clear - L F. revert x L F. induction p as [|n p IH]; intros [|f x] L F; cbn in *; try lia; constructor; [apply (F 0); lia|]. apply IH; [lia|]. intros a Ha. apply (F (S a)). lia.
Qed.
Lemma nth_cell_ext (x y : SpaceSpec.cell) : length x = length y -> (forall a, a < length x -> nth a x (false, 0) = nth a y (false, 0)) -> x = y.
Proof. intros L H. apply nth_ext with (d := (false, 0)) (d' := (false, 0)); [exact L|exact H]. Qed.
Definition put_factor (x : SpaceSpec.cell) (ax : nat) (f : bool * nat) : SpaceSpec.cell := map (fun a => if a =? ax then f else nth a x (false, 0)) (seq 0 (length x)).
Lemma length_put x ax f : length (put_factor x ax f) = length x. Proof. unfold put_factor. rewrite map_length, seq_length. reflexivity. Qed.
Lemma nth_put x ax f a : a < length x -> nth_error (put_factor x ax f) a = Some (if a =? ax then f else nth a x (false, 0)).
Proof. intros H. unfold put_factor. rewrite nth_map_seq_lt by exact H. reflexivity. Qed.
Lemma nth_error_as_nth {A} (l : list A) a d : a < length l -> nth_error l a = Some (nth a l d). Proof. intros H. apply nth_error_nth'. exact H. Qed.
Lemma put_cell p ts x ax i : SpaceProofs.types_ok p ts -> In x (cells p ts) -> ax < length p -> fst (nth ax x (false, 0)) = false -> i <= nth ax p 0 -> In (put_factor x ax (false, i)) (cells p ts).
Proof.
  intros T Hx Ha Hf Hi. apply cell_axes in Hx; [|exact T]. destruct Hx as (L & Ht & F). apply cell_axes; [exact T|]. rewrite length_put. refine (conj L (conj _ _)).
  - replace (map fst (put_factor x ax (false, i))) with (map fst x); [exact Ht|]. apply nth_ext with (d := false) (d' := false); [rewrite !map_length, length_put; reflexivity|]. intros a H. rewrite map_length in H.
    change false with (fst (false, 0)) at 1 3. rewrite !map_nth. rewrite (nth_error_nth _ _ (false, 0) (nth_put x ax (false, i) a H)). destruct (Nat.eqb_spec a ax) as [->|]; [exact Hf|reflexivity].
  - intros a H. rewrite (nth_error_nth _ _ (false, 0) (nth_put x ax (false, i) a ltac:(lia))). destruct (Nat.eqb_spec a ax) as [->|]; [exact Hi|apply F; exact H].
Qed.
Lemma box_cell_nth lay p per idx x a : a < length p -> nth a (box_cell lay p per idx x) (false, 0) =
  (fst (nth a x (false, 0)), coord (nth a lay 0) (nth a p 0) (per a) (nth a idx 0) (snd (nth a x (false, 0)))).
Proof. intros H. unfold box_cell. apply nth_error_nth. rewrite nth_map_seq_lt by exact H. reflexivity. Qed.
Lemma box_cell_length lay p per idx x : length (box_cell lay p per idx x) = length p. Proof. unfold box_cell. rewrite map_length, seq_length. reflexivity. Qed.
Lemma ok_upto n f : ok_factor n f -> snd f <= n. Proof. unfold ok_factor. destruct (fst f); lia. Qed.
Lemma exists_less (X Y : list nat) : length X = length Y -> (exists a, a < length Y /\ nth a X 0 < nth a Y 0) \/ Forall2 le Y X.
Proof.
  revert Y. induction X as [|x X IH]; intros [|y Y] L; try discriminate; [right; constructor|]. destruct (Nat.lt_ge_cases x y) as [H|H].
  - left. exists 0. cbn. split; [lia|exact H].
  - destruct (IH Y ltac:(cbn in L; lia)) as [(a & A & B)|F]; [left; exists (S a); cbn; split; [lia|exact B]|right; constructor; assumption].
Qed.

Section Box.
  Variables (k : nform) (lay p : list nat) (per : nat -> bool) (num : list nat -> nat) (ms : list emap) (N : nat).
  Hypothesis Hd : length lay = length p.
  Hypothesis Hp : Forall (fun n => 1 <= n) p.
  Hypothesis Hper : forall a, a < length p -> per a = true -> 2 <= nth a lay 0.
  Hypothesis Hbij : bijective lay 0 N num.
  Hypothesis Hinc : increasing lay num.
  Let L := concat ms.
  Hypothesis HL : map fst L = seq 0 N.
  Hypothesis HR : forall e row, In (e, row) L -> length row = 2 * length p.
  Hypothesis Hbox : forall idx ax up f, Forall2 lt idx lay -> ax < length p -> (nbr_of L (num idx) ax up f <-> exists idx', Forall2 lt idx' lay /\ f = num idx' /\ box_next lay per idx ax up idx').
  Let ts := types k (length p).
  Let TO : SpaceProofs.types_ok p ts := types_are_ok k p.
  Definition index_num (e : nat) : list nat := match find (fun i => num i =? e) (idxC lay) with Some i => i | None => [] end.
  Lemma index_num_spec e : e < N -> Forall2 lt (index_num e) lay /\ num (index_num e) = e.
  Proof.
    intros He. unfold index_num. destruct (find _ _) as [i|] eqn:E.
    - apply find_some in E. destruct E as [E1 E2]. apply idxC_In in E1. apply Nat.eqb_eq in E2. auto.
    - exfalso. destruct Hbij as (_ & B & _). destruct (B e ltac:(lia)) as (i & Hi & Ei). apply idxC_In in Hi. apply find_none with (x := i) in E; [|exact Hi]. apply Nat.eqb_neq in E. contradiction.
  Qed.
  Lemma num_lt idx : Forall2 lt idx lay -> num idx < N. Proof. intros H. destruct Hbij as (B & _). specialize (B idx H). lia. Qed.
  Lemma index_num_num idx : Forall2 lt idx lay -> index_num (num idx) = idx.
  Proof. intros H. destruct (index_num_spec (num idx) (num_lt idx H)) as [A B]. destruct Hbij as (_ & _ & I). apply I; assumption. Qed.
  Lemma idx_len idx : Forall2 lt idx lay -> length idx = length p. Proof. intros H. rewrite <- Hd. exact (SpaceProofs.F2_length _ _ _ H). Qed.
  Lemma idx_nth idx a : Forall2 lt idx lay -> a < length p -> nth a idx 0 < nth a lay 0. Proof. intros H K. apply F2_lt_nth; [exact H|lia]. Qed.
  Lemma p_nth a : a < length p -> 1 <= nth a p 0. Proof. intros H. apply (proj1 (Forall_forall _ _) Hp). apply nth_In. exact H. Qed.
  Definition BQ (a b : nat * SpaceSpec.cell) : Prop := box_cell lay p per (index_num (fst a)) (snd a) = box_cell lay p per (index_num (fst b)) (snd b).

  Lemma BQ_glued a b : cell_of p ts N a -> cell_of p ts N b -> glued p (nbr_of L) a b -> BQ a b.
  Proof.
    destruct a as [e x], b as [f y]. intros [He Hx] [Hf Hy] (ax & up & NB & T1 & T2 & T3). cbn [fst snd] in *. unfold BQ. cbn [fst snd].
    destruct (index_num_spec e He) as [FX EX], (index_num_spec f Hf) as [FY EY]. assert (Ha := nbr_ax p ms HR e ax up f NB).
    rewrite <- EX in NB. apply Hbox in NB; [|exact FX|exact Ha]. destruct NB as (idx' & F' & Ef & LN & ON & MV).
    assert (E' : index_num f = idx') by (rewrite Ef; apply index_num_num; exact F'). rewrite E'. set (X := index_num e) in *.
    apply cell_axes in Hx, Hy; auto. destruct Hx as (Lx & _ & Fx), Hy as (Ly & _ & Fy).
    apply nth_cell_ext; [rewrite !box_cell_length; reflexivity|]. rewrite box_cell_length. intros a Hb. rewrite !box_cell_nth by exact Hb. destruct (Nat.eq_dec a ax) as [->|Na].
    - rewrite (nth_error_nth _ _ (false, 0) T1), (nth_error_nth _ _ (false, 0) T2). cbn [fst snd]. f_equal. assert (P1 := p_nth ax Ha).
      destruct MV as [MV|(P & X1 & X2)].
      + unfold moved in MV. destruct up; rewrite MV; [symmetry|]; apply coord_step.
      + rewrite P. unfold extreme in X1, X2. destruct up; cbn [negb] in X2; [apply coord_wrap|symmetry; apply coord_wrap]; auto.
    - specialize (T3 a Na). rewrite !(nth_error_as_nth _ _ (false, 0)) in T3 by lia. injection T3 as T3. rewrite T3, (ON a Na). reflexivity.
  Qed.
  Lemma less_num X Y : Forall2 lt X lay -> Forall2 lt Y lay -> num X <= num Y -> X <> Y -> exists a, a < length p /\ nth a X 0 < nth a Y 0.
  Proof.
    intros FX FY H Ne. destruct (exists_less X Y) as [(a & A & B)|F]; [rewrite (idx_len X FX), (idx_len Y FY); reflexivity| |].
    - exists a. rewrite (idx_len Y FY) in A. auto.
    - exfalso. assert (Z := Hinc Y X FY FX F ltac:(congruence)). lia.
  Qed.
  Lemma upd_lt Y a v : Forall2 lt Y lay -> a < length p -> v < nth a lay 0 -> Forall2 lt (upd Y a (fun _ => v)) lay.
  Proof.
    intros F Ha Hv. assert (LY := idx_len Y F). apply F2_lt_intro; [rewrite upd_length; lia|]. intros b Hb. destruct (Nat.eq_dec b a) as [->|Nb].
    - rewrite upd_nth_same by lia. exact Hv.
    - rewrite upd_nth_other by exact Nb. apply idx_nth; [exact F|lia].
  Qed.
  Lemma upd_less Y a v : Forall2 lt Y lay -> a < length p -> v < nth a Y 0 -> num (upd Y a (fun _ => v)) < num Y.
  Proof.
    intros F Ha Hv. assert (LY := idx_len Y F). assert (HY := idx_nth Y a F Ha). apply Hinc; [apply upd_lt; auto; lia|exact F| |].
    - assert (G : forall (Z : list nat) b, nth b Z 0 >= v -> Forall2 le (upd Z b (fun _ => v)) Z).
      { clear. induction Z as [|z Z IH]; intros [|b] H; cbn in *; constructor; auto; try lia. clear. induction Z; constructor; auto. }
      apply G. lia.
    - intros E. assert (Z := upd_nth_same Y a (fun _ => v) ltac:(lia)). rewrite E in Z. lia.
  Qed.
  Lemma BQ_old e x f y : e <= f -> (e, x) <> (f, y) -> cell_of p ts N (e, x) -> cell_of p ts N (f, y) -> BQ (e, x) (f, y) -> exists g z, g < f /\ In z (cells p ts) /\ glued p (nbr_of L) (g, z) (f, y).
  Proof.
    intros Le Ne [He Hx] [Hf Hy] HQ. cbn [fst snd] in *. unfold BQ in HQ. cbn [fst snd] in HQ.
    destruct (index_num_spec e He) as [FX EX], (index_num_spec f Hf) as [FY EY]. set (X := index_num e) in *. set (Y := index_num f) in *.
    assert (Hy' := Hy). apply cell_axes in Hx, Hy'; auto. destruct Hx as (Lx & _ & Fx), Hy' as (Ly & _ & Fy).
    assert (Q : forall a, a < length p -> fst (nth a x (false, 0)) = fst (nth a y (false, 0)) /\ coord (nth a lay 0) (nth a p 0) (per a) (nth a X 0) (snd (nth a x (false, 0))) = coord (nth a lay 0) (nth a p 0) (per a) (nth a Y 0) (snd (nth a y (false, 0)))).
    { intros a Ha. assert (Z := f_equal (fun l => nth a l (false, 0)) HQ). cbn beta in Z. rewrite !box_cell_nth in Z by exact Ha. injection Z as Z1 Z2. auto. }
    destruct (list_eq_dec Nat.eq_dec X Y) as [E|E].
    - exfalso. apply Ne. f_equal; [congruence|]. apply nth_cell_ext; [lia|]. rewrite Lx. intros a Ha. destruct (Q a Ha) as [Q1 Q2]. rewrite E in Q2.
      apply coord_same in Q2; [destruct (nth a x (false, 0)), (nth a y (false, 0)); cbn in *; congruence|apply p_nth; exact Ha|apply idx_nth; assumption|apply Hper; exact Ha|apply ok_upto, Fx; exact Ha|apply ok_upto, Fy; exact Ha].
    - destruct (less_num X Y FX FY ltac:(lia) E) as (a & Ha & Lt). destruct (Q a Ha) as [Q1 Q2].
      assert (Pa := p_nth a Ha). assert (Xa := idx_nth X a FX Ha). assert (Ya := idx_nth Y a FY Ha). assert (Fxa := Fx a Ha). assert (Fya := Fy a Ha).
      assert (K : exists v i up, v < nth a Y 0 /\ i <= nth a p 0 /\ fst (nth a y (false, 0)) = false /\ snd (nth a y (false, 0)) = (if up : bool then 0 else nth a p 0) /\ i = (if up then nth a p 0 else 0) /\
        box_next lay per (upd Y a (fun _ => v)) a up Y).
      { apply coord_less in Q2; [|exact Pa|exact Lt|exact Ya|apply ok_upto; exact Fxa|apply ok_upto; exact Fya].
        assert (LU : forall v, length Y = length (upd Y a (fun _ => v))) by (intros; rewrite upd_length; reflexivity).
        assert (OU : forall v b, b <> a -> nth b Y 0 = nth b (upd Y a (fun _ => v)) 0) by (intros v b Hb; rewrite upd_nth_other by exact Hb; reflexivity).
        assert (SU : forall v, nth a (upd Y a (fun _ => v)) 0 = v) by (intros v; apply upd_nth_same; rewrite (idx_len Y FY); exact Ha).
        destruct Q2 as [(A & B & D)|(P & A & B & D & G)].
        - exists (nth a X 0), (nth a p 0), true. refine (conj Lt (conj (le_n _) (conj _ (conj D (conj eq_refl (conj (LU _) (conj (OU _) _))))))).
          + rewrite <- Q1. unfold ok_factor in Fxa. destruct (fst (nth a x (false, 0))); [lia|reflexivity].
          + left. unfold moved. rewrite SU. exact A.
        - exists 0, 0, false. refine (conj _ (conj _ (conj _ (conj G (conj eq_refl (conj (LU _) (conj (OU _) _))))))); [lia|lia| |].
          + unfold ok_factor in Fya. destruct (fst (nth a y (false, 0))); [lia|reflexivity].
          + right. refine (conj P (conj _ _)); unfold extreme; cbn [negb]; [apply SU|exact D]. }
      destruct K as (v & i & up & K1 & K2 & K3 & K4 & K5 & K6). exists (num (upd Y a (fun _ => v))), (put_factor y a (false, i)). refine (conj _ (conj _ _)).
      + rewrite <- EY. apply upd_less; assumption.
      + apply put_cell; auto.
      + exists a, up. cbn [fst snd]. split.
        * apply Hbox; [apply upd_lt; auto; lia|exact Ha|]. exists Y. auto.
        * refine (conj _ (conj _ _)).
          -- rewrite nth_put by lia. rewrite Nat.eqb_refl, K5. reflexivity.
          -- rewrite (nth_error_as_nth _ _ (false, 0)) by lia. rewrite (surjective_pairing (nth a y (false, 0))), K3, K4. reflexivity.
          -- intros b Hb. destruct (Nat.lt_ge_cases b (length y)) as [Lb|Gb].
             ++ rewrite nth_put by exact Lb. rewrite (proj2 (Nat.eqb_neq b a) Hb). symmetry. apply nth_error_as_nth. exact Lb.
             ++ rewrite !(proj2 (nth_error_None _ _)); [reflexivity|exact Gb|rewrite length_put; exact Gb].
  Qed.
  Lemma box_follows : follows (nbr_of L) N.
  Proof.
    intros e [H0 He]. destruct (index_num_spec e He) as [F E], (index_num_spec 0 ltac:(lia)) as [F0 E0]. set (Y := index_num e) in *. set (Z := index_num 0) in *.
    destruct (less_num Z Y F0 F ltac:(lia)) as (a & Ha & Lt); [intros X; rewrite X in E0; lia|].
    assert (Ya := idx_nth Y a F Ha). assert (LY := idx_len Y F).
    exists (num (upd Y a (fun _ => nth a Y 0 - 1))), a, true. split; [assert (W := upd_less Y a (nth a Y 0 - 1) F Ha ltac:(lia)); lia|].
    apply Hbox; [apply upd_lt; auto; lia|exact Ha|]. exists Y. refine (conj F (conj (eq_sym E) _)). refine (conj _ (conj _ _)).
    - rewrite upd_length. reflexivity.
    - intros b Hb. rewrite upd_nth_other by exact Hb. reflexivity.
    - left. unfold moved. rewrite upd_nth_same by lia. lia.
  Qed.
  Notation same_box := (same_box lay p per num).
  Lemma same_box_BQ a b : fst a < N -> fst b < N -> (same_box a b <-> BQ a b).
  Proof.
    intros Ha Hb. unfold NumSpec.same_box, BQ. split.
    - intros (i & j & F & G & <- & <- & E). rewrite !index_num_num by assumption. exact E.
    - intros E. destruct (index_num_spec _ Ha) as [A B], (index_num_spec _ Hb) as [C D]. exists (index_num (fst a)), (index_num (fst b)). auto.
  Qed.
  Theorem box_conforming : exists gms, naive k p ms = Some gms /\ map (map fst) gms = map (map fst) ms /\ total p ts N (concat gms) /\ conforming p ts N (concat gms) same_box.
  Proof.
    assert (NS := proj2 (naive_success k p ms N HL HR) box_follows). destruct (naive k p ms) as [gms|] eqn:E; [|contradiction]. exists gms. split; [reflexivity|].
    destruct (naive_total k p ms N HL HR gms E) as (T & M & _). refine (conj M (conj T _)).
    destruct (got k p ms N HL HR gms E) as (nm & K & St & Rg & Eg).
    assert (C := conforming_Q k p ms N HL HR gms nm St Eg BQ ltac:(intros; reflexivity) ltac:(intros a b; unfold BQ; congruence) ltac:(intros a b c; unfold BQ; congruence) BQ_glued BQ_old).
    intros a b m n Ha Hb A B. rewrite (C a b m n Ha Hb A B). symmetry. apply same_box_BQ; [apply Ha|apply Hb].
  Qed.
End Box.
