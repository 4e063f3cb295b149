(* Connections, offsets and gatherings. *)
From Coq Require Import List Arith ZArith Bool Lia.
From Verif Require Import Prelude RingSum TriModel TriSpec TriProofs TriProofs2 TriProofs3 TriProofs4 TriProofs5 TriProofs6 TriProofs7 VtkModel VtkSpec VtkProofs.
Import ListNotations.

(* ---------- parts of joined lists ---------- *)
Definition ladd (l : list nat) : nat := fold_right Nat.add 0 l.
Lemma offsets_len s sizes : length (offsets_from s sizes) = length sizes.
Proof. revert s. induction sizes as [|x r IH]; intros s; [reflexivity|]. cbn. rewrite IH. reflexivity. Qed.
Lemma offsets_at s sizes k : k < length sizes -> nth k (offsets_from s sizes) 0 = s + ladd (firstn (S k) sizes).
Proof.
  revert s k. induction sizes as [|x r IH]; intros s k H; [cbn in H; lia|]. destruct k as [|k]; cbn [offsets_from nth].
  - cbn. lia.
  - rewrite IH by (cbn in H; lia). rewrite (firstn_cons (S k) x r). unfold ladd. cbn [fold_right]. lia.
Qed.
Lemma starts_at sizes k : k < length sizes -> starts (offsets_from 0 sizes) k = ladd (firstn k sizes).
Proof. intros H. destruct k as [|k]; [reflexivity|]. cbn [starts]. rewrite offsets_at by lia. reflexivity. Qed.
Lemma part_joined {A} (Ls : list (list A)) k : k < length Ls -> part (concat Ls) (ladd (firstn k (map (@length A) Ls))) (ladd (firstn (S k) (map (@length A) Ls))) = nth k Ls [].
Proof.
  unfold part. revert k. induction Ls as [|x Ls IH]; intros k H; [cbn in H; lia|]. destruct k as [|k].
  - cbn [map firstn concat nth]. unfold ladd. cbn [fold_right]. rewrite Nat.add_0_r, Nat.sub_0_r. cbn [skipn]. rewrite firstn_app, Nat.sub_diag. cbn [firstn]. rewrite firstn_all, app_nil_r. reflexivity.
  - specialize (IH k ltac:(cbn in H; lia)). cbn [map concat nth]. rewrite <- IH. rewrite (firstn_cons k (length x)), (firstn_cons (S k) (length x)). unfold ladd. cbn [fold_right]. rewrite skipn_app.
    rewrite (skipn_all2 x) by lia. cbn [app]. f_equal; [|f_equal]; lia.
Qed.
Lemma part_by_offsets {A} (Ls : list (list A)) sizes k : map (@length A) Ls = sizes -> k < length Ls ->
  part (concat Ls) (starts (offsets_from 0 sizes) k) (nth k (offsets_from 0 sizes) 0) = nth k Ls [].
Proof. intros <- H. rewrite starts_at, offsets_at by (rewrite map_length; exact H). apply part_joined, H. Qed.
Lemma nth_blocks {A} (Ls : list (list A)) n c b d : (forall x, In x Ls -> length x = n) -> c < length Ls -> b < n -> nth (c * n + b) (concat Ls) d = nth b (nth c Ls []) d.
Proof.
  revert c. induction Ls as [|x Ls IH]; intros c H Hc Hb; [cbn in Hc; lia|]. assert (Lx := H x (or_introl eq_refl)). cbn [concat]. destruct c as [|c].
  - cbn [Nat.mul Nat.add nth]. rewrite app_nth1 by lia. reflexivity.
  - rewrite app_nth2 by nia. replace (S c * n + b - length x) with (c * n + b) by nia. apply IH; [intros y Y; apply H; right; exact Y|cbn in Hc; lia|exact Hb].
Qed.
Lemma len_blocks {A} (Ls : list (list A)) n : (forall x, In x Ls -> length x = n) -> length (concat Ls) = length Ls * n.
Proof. induction Ls as [|x Ls IH]; intros H; [reflexivity|]. cbn [concat length]. rewrite app_length, IH by (intros y Y; apply H; right; exact Y). rewrite (H x (or_introl eq_refl)). lia. Qed.
Lemma linspace_offsets s n : map (fun k => s + 6 * (k + 1)) (seq 0 n) = offsets_from s (repeat 6 n).
Proof.
  revert s. induction n as [|n IH]; intros s; [reflexivity|]. cbn [seq map repeat offsets_from]. f_equal; try lia. rewrite <- seq_shift, map_map, <- IH. apply map_ext. intros k. lia.
Qed.

(* ---------- quadratic triangles ---------- *)
Definition qn (q : nat) : nat * nat := nth q [(0, 0); (2, 2); (0, 2); (2, 1); (1, 2); (0, 1)] (0, 0).
Definition gn (k : nat) : nat * nat := nth k [(1, 0); (0, 1); (2, 1); (0, 2); (1, 2); (2, 2)] (0, 0).
Ltac six q := destruct q as [|[|[|[|[|[|q]]]]]]; [..|exfalso; lia].
Lemma conn6_at A q : q < 6 -> nth q (conn6 A) (-1)%Z = A (fst (qn q)) (snd (qn q)).
Proof. intros H. six q; reflexivity. Qed.
Lemma gath6_at A k : k < 6 -> nth k (gath6 A) (-1)%Z = A (fst (gn k)) (snd (gn k)).
Proof. intros H. six k; reflexivity. Qed.
Lemma line_middle a b : on_line 2 a b 1 = middle a b.
Proof. unfold on_line, middle. destruct (Nat.ltb_spec a b) as [H|H]; [rewrite Nat.min_l, Nat.max_r by lia; reflexivity|rewrite Nat.min_r, Nat.max_l by lia; reflexivity]. Qed.
Lemma middle_sym a b : middle a b = middle b a.
Proof. unfold middle. rewrite Nat.min_comm, Nat.max_comm. reflexivity. Qed.
Lemma qn_where cells c q : q < 6 -> where0 2 cells c (fst (qn q)) (snd (qn q)) = q_point (cl cells c) q.
Proof. intros H. six q; unfold where0, qn, q_point; cbn [nth fst snd Nat.eqb]; try reflexivity; rewrite line_middle; try apply middle_sym; reflexivity. Qed.
Lemma ok_qn q : q < 6 -> fst (qn q) <= 2 /\ snd (qn q) <= 2 /\ mid 2 (fst (qn q)) && mid 2 (snd (qn q)) = false.
Proof. intros H. six q; cbn; repeat split; lia. Qed.
Lemma ok_gn q : q < 6 -> fst (gn q) <= 2 /\ snd (gn q) <= 2 /\ mid 2 (fst (gn q)) && mid 2 (snd (gn q)) = false.
Proof. intros H. six q; cbn; repeat split; lia. Qed.

Section Mesh.
  Variables (conds : list (nat * (point -> bool))) (pts : list point) (cells0 cells : list tri) (M : smap).
  Hypothesis HE : make_mesh conds pts cells0 = Some (cells, M).
  Hypothesis HO : no_overlap pts cells.
  Lemma hM : manifold cells.
  Proof. exact (proj1 (made_manifold conds pts cells0 cells M HE HO)). Qed.
  Lemma hD : describes cells M.
  Proof. exact (proj1 (made_describes conds pts cells0 cells M HE HO)). Qed.

  Theorem quadratic_ok : exists C O G n, quadratic cells M = Some (C, O, G) /\ length O = length cells /\ length C = 6 * length cells /\ length G = length cells /\
    let row c := part C (starts O c) (nth c O 0) in
    (forall c, c < length cells -> length (row c) = 6) /\
    (forall c q, c < length cells -> q < 6 -> (0 <= nth q (row c) (-1)%Z < Z.of_nat n)%Z) /\
    (forall c q c' q', c < length cells -> c' < length cells -> q < 6 -> q' < 6 ->
      (nth q (row c) (-1)%Z = nth q' (row c') (-1)%Z <-> q_point (cl cells c) q = q_point (cl cells c') q')) /\
    (forall k, k < n -> exists c q, c < length cells /\ q < 6 /\ nth q (row c) (-1)%Z = Z.of_nat k) /\
    (forall c k i j q, c < length cells -> k < 6 -> q < 6 -> i <= 2 -> i + 3 * j = nth k [1; 3; 5; 6; 7; 8] 0 -> where0 2 cells c i j = q_point (cl cells c) q ->
      nth k (nth c G []) (-1)%Z = nth q (row c) (-1)%Z).
  Proof.
    destruct (numq_ok 2 cells M ltac:(lia) hM hD) as (As & n & E & LA & R & J & S). unfold quadratic, numberingq. rewrite E.
    eexists. eexists. eexists. exists n. split; [reflexivity|].
    assert (LL : forall x, In x (map conn6 As) -> length x = 6) by (intros x I; apply in_map_iff in I as (A & <- & _); reflexivity).
    split; [rewrite map_length, seq_length; exact LA|]. split; [rewrite (len_blocks _ 6 LL), map_length, LA; lia|]. split; [rewrite map_length; exact LA|]. cbv zeta.
    set (row := fun c : nat => part (concat (map conn6 As)) (starts (map (fun k => 6 * (k + 1)) (seq 0 (length As))) c) (nth c (map (fun k => 6 * (k + 1)) (seq 0 (length As))) 0)).
    assert (RW : forall c, c < length cells -> row c = conn6 (nth c As ones2)).
    { intros c Hc. unfold row. change (fun k : nat => 6 * (k + 1)) with (fun k : nat => 0 + 6 * (k + 1)). rewrite linspace_offsets. rewrite part_by_offsets.
      - rewrite (nth_indep _ [] (conn6 ones2)) by (rewrite map_length; lia). apply map_nth.
      - clear. induction As as [|A As IH]; [reflexivity|]. cbn [map length repeat]. f_equal. exact IH.
      - rewrite map_length. lia. }
    assert (RQ : forall c q, c < length cells -> q < 6 -> nth q (row c) (-1)%Z = dn0 As c (qn q)) by (intros c q Hc Hq; rewrite RW by exact Hc; apply conn6_at, Hq).
    enough (Q : (forall c, c < length cells -> length (row c) = 6) /\
    (forall c q, c < length cells -> q < 6 -> (0 <= nth q (row c) (-1)%Z < Z.of_nat n)%Z) /\
    (forall c q c' q', c < length cells -> c' < length cells -> q < 6 -> q' < 6 ->
      (nth q (row c) (-1)%Z = nth q' (row c') (-1)%Z <-> q_point (cl cells c) q = q_point (cl cells c') q')) /\
    (forall k, k < n -> exists c q, c < length cells /\ q < 6 /\ nth q (row c) (-1)%Z = Z.of_nat k) /\
    (forall c k i j q, c < length cells -> k < 6 -> q < 6 -> i <= 2 -> i + 3 * j = nth k [1; 3; 5; 6; 7; 8] 0 -> where0 2 cells c i j = q_point (cl cells c) q ->
      nth k (nth c (map gath6 As) []) (-1)%Z = nth q (row c) (-1)%Z)) by exact Q.
    split; [intros c Hc; rewrite RW by exact Hc; reflexivity|]. split; [|split; [|split]].
    - intros c q Hc Hq. rewrite RQ by assumption. apply R; [exact Hc|apply ok_qn, Hq].
    - intros c q c' q' Hc Hc' Hq Hq'. rewrite !RQ by assumption. rewrite <- !qn_where by assumption. apply J; try assumption; apply ok_qn; assumption.
    - intros k Hk. destruct (S k Hk) as (c & [i j] & Hc & (O1 & O2 & O3) & Ek). cbn [fst snd] in *.
      assert (Q : exists q, q < 6 /\ where0 2 cells c (fst (qn q)) (snd (qn q)) = where0 2 cells c i j).
      { destruct j as [|[|[|j]]]; [|..|lia].
        - exists 0. split; [lia|]. reflexivity.
        - destruct i as [|[|[|i]]]; [|..|lia]; [exists 5; split; [lia|reflexivity]|discriminate O3|exists 3; split; [lia|reflexivity]].
        - destruct i as [|[|[|i]]]; [|..|lia]; [exists 2|exists 4|exists 1]; (split; [lia|reflexivity]). }
      destruct Q as (q & Hq & Q). exists c, q. split; [exact Hc|]. split; [exact Hq|]. rewrite RQ by assumption. rewrite <- Ek.
      apply (J c (qn q) c (i, j)); try assumption; [apply ok_qn, Hq|split; [exact O1|split; [exact O2|exact O3]]].
    - intros c k i j q Hc Hk Hq Hi Ek W. rewrite RQ by assumption.
      rewrite (nth_indep _ [] (gath6 ones2)) by (rewrite map_length; lia). rewrite map_nth, gath6_at by exact Hk.
      assert (EG : (i, j) = gn k) by (six k; cbn [nth] in Ek; unfold gn; cbn [nth]; f_equal; lia).
      apply (J c (gn k) c (qn q)); try assumption; [apply ok_gn, Hk|apply ok_qn, Hq|]. rewrite <- EG. cbn [fst snd]. rewrite W. symmetry. apply qn_where, Hq.
  Qed.

  (* ---------- triangles and quads ---------- *)
  Lemma vtk_len p : length (vtk_cells p) = p * p.
  Proof.
    unfold vtk_cells. rewrite app_length, map_length, seq_length, flat_map_concat_map. rewrite (len_blocks _ p).
    - rewrite map_length, seq_length. destruct p; nia.
    - intros x I. apply in_map_iff in I as (k & <- & _). rewrite map_length, seq_length. reflexivity.
  Qed.
  Lemma vtk_at p b : b < p * p -> nth b (vtk_cells p) [] = grid_cell p b.
  Proof.
    intros H. assert (P : p <> 0) by nia. unfold vtk_cells, grid_cell. destruct (Nat.ltb_spec b p) as [L|L].
    - rewrite Nat.div_small, Nat.mod_small by exact L. cbn [Nat.eqb]. rewrite app_nth1 by (rewrite map_length, seq_length; exact L).
      rewrite (nth_indep _ [] (tri_nodes 0)) by (rewrite map_length, seq_length; exact L). rewrite map_nth, seq_nth by exact L. reflexivity.
    - rewrite app_nth2 by (rewrite map_length, seq_length; exact L). rewrite map_length, seq_length.
      set (d := b / p). set (m := b mod p). assert (B : b = p * d + m) by (apply Nat.div_mod, P). assert (Hm : m < p) by (apply Nat.mod_upper_bound, P).
      assert (D : 1 <= d) by nia. assert (D' : d <= p - 1) by nia. destruct (Nat.eqb_spec d 0); [lia|].
      rewrite flat_map_concat_map. replace (b - p) with ((d - 1) * p + m) by nia. rewrite (nth_blocks _ p).
      + rewrite (nth_indep _ [] (map (fun i => quad_nodes i (0 + 1)) (seq 0 p))) by (rewrite map_length, seq_length; lia).
        rewrite (map_nth (fun k => map (fun i => quad_nodes i (k + 1)) (seq 0 p))). rewrite seq_nth by lia.
        rewrite (nth_indep _ [] (quad_nodes 0 (0 + (d - 1) + 1))) by (rewrite map_length, seq_length; exact Hm).
        rewrite (map_nth (fun i => quad_nodes i (0 + (d - 1) + 1))), seq_nth by exact Hm. replace (0 + (d - 1) + 1) with d by lia. reflexivity.
      + intros x I. apply in_map_iff in I as (k & <- & _). rewrite map_length, seq_length. reflexivity.
      + rewrite map_length, seq_length. lia.
      + exact Hm.
  Qed.
  Lemma map_alike {X Y} (f : X -> Y) y l : (forall x, f x = y) -> map f l = repeat y (length l).
  Proof. intros H. induction l as [|x l IH]; [reflexivity|]. cbn [map length repeat]. rewrite H, IH. reflexivity. Qed.
  Lemma vtk_sizes p : map (@length _) (vtk_cells p) = map (fun _ => 3) (seq 0 p) ++ map (fun _ => 4) (seq 0 (p * (p - 1))).
  Proof.
    unfold vtk_cells. rewrite map_app, map_map. rewrite (map_alike (fun x => length (tri_nodes x)) 3), (map_alike (fun _ : nat => 3) 3) by reflexivity. f_equal.
    rewrite (map_alike (fun _ : nat => 4) 4) by reflexivity. rewrite seq_length, Nat.mul_comm.
    assert (Q : forall l : list nat, map (@length (nat * nat)) (flat_map (fun k => map (fun i => quad_nodes i (k + 1)) (seq 0 p)) l) = repeat 4 (length l * p)).
    { induction l as [|k l IH]; [reflexivity|]. cbn [flat_map length Nat.mul]. rewrite map_app, IH, map_map, repeat_app. f_equal.
      rewrite (map_alike (fun x => length (quad_nodes x (k + 1))) 4) by reflexivity. rewrite seq_length. reflexivity. }
    rewrite Q, seq_length. reflexivity.
  Qed.
  Lemma grid_next I p : grid I (p + 1) = map (fun i => (i, 0)) (seq 0 I) ++ flat_map (fun j => map (fun i => (i, j)) (seq 0 I)) (seq 1 p).
  Proof. unfold grid. rewrite Nat.add_1_r. reflexivity. Qed.
  Lemma ravel_tail p A : skipn (p + 1) (ravelF (p + 1) (p + 1) A) = ravelF (p + 1) p (fun i j => A i (j + 1)).
  Proof.
    unfold ravelF. rewrite grid_next, map_app, skipn_app. unfold grid.
    rewrite (skipn_all2 (map _ (map _ _))) by (rewrite !map_length, seq_length; lia). rewrite !map_length, seq_length, Nat.sub_diag. cbn [skipn app].
    rewrite <- seq_shift. generalize (seq 0 p) as l. induction l as [|j l IH]; [reflexivity|]. cbn [map flat_map]. rewrite !map_app, IH. f_equal. rewrite !map_map. apply map_ext. intros i. cbn [fst snd]. f_equal. lia.
  Qed.
  Lemma ravel_len I J A : length (ravelF I J A) = J * I.
  Proof. apply len_ravel. Qed.
  Lemma take_tail l s n : s + n = length l -> take_at l (seq s n) = skipn s l.
  Proof.
    unfold take_at. revert s n. induction l as [|x l IH]; intros s n H; cbn [length] in H; [assert (s = 0) by lia; assert (n = 0) by lia; subst; reflexivity|].
    destruct s as [|s].
    - cbn [Nat.add skipn] in *. subst n. cbn [seq map]. f_equal. rewrite <- seq_shift, map_map. change (map (fun k => znth l k) (seq 0 (length l)) = l). exact (IH 0 (length l) eq_refl).
    - cbn [skipn]. rewrite <- (IH s n) by lia. rewrite <- seq_shift, map_map. reflexivity.
  Qed.
  Lemma gathering_same p A : 1 <= p -> A (p / 2) 0 = A 0 0 -> tq_gathering p A = gathering0 p A.
  Proof.
    intros Hp H. unfold tq_gathering, tq_indices, gathering0. unfold take_at. cbn [map]. f_equal.
    - assert (Q : p / 2 <= p) by (apply Nat.div_le_upper_bound; lia). rewrite <- H. rewrite <- (znth_ravel (p + 1) (p + 1) A (p / 2) 0) by lia. f_equal. lia.
    - change (take_at (ravelF (p + 1) (p + 1) A) (seq (p + 1) ((p + 1) * (p + 1) - (p + 1))) = ravelF (p + 1) p (fun i j => A i (j + 1))). rewrite take_tail by (rewrite ravel_len; nia). apply ravel_tail.
  Qed.
  Lemma type_at p b : b < p * p -> nth b (repeat 5 p ++ repeat 9 (p * (p - 1))) 0 = if b / p =? 0 then 5 else 9.
  Proof.
    intros H. assert (P : p <> 0) by nia. destruct (Nat.ltb_spec b p) as [L|L].
    - rewrite Nat.div_small by exact L. cbn [Nat.eqb]. rewrite app_nth1 by (rewrite repeat_length; exact L). rewrite (nth_indep _ 0 5) by (rewrite repeat_length; exact L). apply nth_repeat.
    - assert (D : b / p <> 0) by (intros D; apply Nat.div_small_iff in D; lia). destruct (Nat.eqb_spec (b / p) 0); [contradiction|].
      rewrite app_nth2 by (rewrite repeat_length; exact L). rewrite repeat_length. rewrite (nth_indep _ 0 9) by (rewrite repeat_length; nia). apply nth_repeat.
  Qed.
  Theorem tq_ok p : 1 <= p -> exists A n D, numbering0 p cells M = Some (A, n) /\ tq_data p cells M = Some D /\
    length (tq_offsets D) = length cells * (p * p) /\ length (tq_types D) = length cells * (p * p) /\ length (tq_gath D) = length cells /\
    (forall c b, c < length cells -> b < p * p ->
      part (tq_conn D) (starts (tq_offsets D) (c * (p * p) + b)) (nth (c * (p * p) + b) (tq_offsets D) 0)
        = map (fun ij => num0 p A c (Z.to_nat (tln0 p (fst ij) (snd ij)))) (grid_cell p b) /\
      nth (c * (p * p) + b) (tq_types D) 0 = (if b / p =? 0 then 5 else 9)) /\
    (forall c, c < length cells -> nth c (tq_gath D) [] = gathering0 p (nth c A ones2)).
  Proof.
    intros Hp. destruct (numbering0_ok p cells M Hp hM hD) as (A & n & E & LA & R & J & S). unfold tq_data. rewrite E. exists A, n. eexists. split; [reflexivity|]. split; [reflexivity|].
    cbn [tq_conn tq_offsets tq_types tq_gath]. rewrite offsets_len.
    set (sz := map (fun _ => 3) (seq 0 p) ++ map (fun _ => 4) (seq 0 (p * (p - 1)))).
    assert (Lsz : length sz = p * p) by (unfold sz; rewrite app_length, !map_length, !seq_length; nia).
    assert (B1 : forall x, In x (map (fun _ : arr2 => sz) A) -> length x = p * p) by (intros x I; apply in_map_iff in I as (y & <- & _); exact Lsz).
    assert (B2 : forall x, In x (map (fun _ : arr2 => repeat 5 p ++ repeat 9 (p * (p - 1))) A) -> length x = p * p) by (intros x I; apply in_map_iff in I as (y & <- & _); rewrite app_length, !repeat_length; nia).
    split; [rewrite (len_blocks _ _ B1), map_length, LA; reflexivity|]. split; [rewrite (len_blocks _ _ B2), map_length, LA; reflexivity|]. split; [rewrite map_length; exact LA|]. split.
    - intros c b Hc Hb. split.
      + set (Ls := map (fun a => map (numbers_of a) (vtk_cells p)) A).
        assert (EC : concat (map (fun a => concat (map (numbers_of a) (vtk_cells p))) A) = concat (concat Ls)) by (unfold Ls; clear; induction A as [|a A IH]; [reflexivity|]; cbn [map concat]; rewrite concat_app, IH; reflexivity).
        rewrite EC. assert (B3 : forall x, In x Ls -> length x = p * p) by (intros x I; apply in_map_iff in I as (y & <- & _); rewrite map_length; apply vtk_len).
        rewrite part_by_offsets.
        * rewrite (nth_blocks Ls (p * p) c b [] B3); [|unfold Ls; rewrite map_length; lia|exact Hb]. unfold Ls.
          rewrite (nth_indep _ [] (map (numbers_of ones2) (vtk_cells p))) by (rewrite map_length; lia). rewrite (map_nth (fun a => map (numbers_of a) (vtk_cells p))).
          rewrite (nth_indep _ [] (numbers_of (nth c A ones2) [])) by (rewrite map_length, vtk_len; exact Hb). rewrite map_nth, vtk_at by exact Hb.
          assert (GI : forall ij, In ij (grid_cell p b) -> fst ij <= p /\ snd ij <= p /\ (snd ij = 0 -> fst ij = 0)).
          { assert (P : p <> 0) by lia. unfold grid_cell. assert (Hm : b mod p < p) by (apply Nat.mod_upper_bound, P). assert (Hd : b / p < p) by (apply Nat.div_lt_upper_bound; [exact P|nia]).
            destruct (Nat.eqb_spec (b / p) 0); intros ij I; cbn in I; repeat (destruct I as [<-|I]; [cbn [fst snd]; lia|]); destruct I. }
          unfold numbers_of. apply map_ext_in. intros [i j] I. cbn [fst snd]. destruct (GI _ I) as (G1 & G2 & G3). cbn [fst snd] in *.
          unfold num0. rewrite dofn_at. rewrite gathering0_at by (destruct j; cbn; lia). destruct j as [|j]; [rewrite (G3 eq_refl); reflexivity|reflexivity].
        * unfold Ls. clear -sz. induction A as [|a A IH]; [reflexivity|]. cbn [map concat]. rewrite map_app, IH. f_equal. rewrite map_map. unfold sz. rewrite <- vtk_sizes. apply map_ext. intros x. unfold numbers_of. apply map_length.
        * rewrite (len_blocks _ _ B3). unfold Ls. rewrite map_length. nia.
      + rewrite (nth_blocks _ (p * p) c b 0 B2); [|rewrite map_length; lia|exact Hb]. rewrite (nth_indep _ [] (repeat 5 p ++ repeat 9 (p * (p - 1)))) by (rewrite map_length; lia).
        rewrite (map_nth (fun _ : arr2 => repeat 5 p ++ repeat 9 (p * (p - 1))) A ones2). apply type_at, Hb.
    - intros c Hc. rewrite (nth_indep _ [] (tq_gathering p ones2)) by (rewrite map_length; lia). rewrite map_nth. apply gathering_same; [exact Hp|].
      apply J; try assumption; try lia. apply Nat.div_le_upper_bound; lia. reflexivity.
  Qed.
  Theorem tq_cached_ok ps p : 1 <= p -> fst (tq_cached cells M (requests_tq cells M ps) p) = tq_data p cells M.
  Proof.
    intros Hp. assert (I : forall q d, requests_tq cells M ps = Some (q, d) -> tq_data q cells M = Some d).
    { unfold requests_tq. assert (I0 : forall q d, (None : option (nat * tqdata)) = Some (q, d) -> tq_data q cells M = Some d) by discriminate. revert I0. generalize (None : option (nat * tqdata)).
      induction ps as [|p' ps IH]; intros c I; [exact I|]. cbn [fold_left]. apply IH. intros q d. unfold tq_cached.
      destruct c as [[q' d']|]; [destruct (Nat.eqb_spec q' p'); cbn [snd]; [apply I|]|]; (destruct (1 <=? p'); [|cbn [snd]; apply I]); (destruct (tq_data p' cells M) as [x|] eqn:X; cbn [snd]; [|apply I]);
        intros Q; injection Q as <- <-; exact X. }
    unfold tq_cached. destruct (requests_tq cells M ps) as [[q d]|].
    - destruct (Nat.eqb_spec q p) as [->|]; [cbn [fst]; symmetry; apply I; reflexivity|]. destruct (Nat.leb_spec 1 p); [|lia]. destruct (tq_data p cells M); reflexivity.
    - destruct (Nat.leb_spec 1 p); [|lia]. destruct (tq_data p cells M); reflexivity.
  Qed.
End Mesh.
