(** Proofs for C66: apply_strong_BC and the solutions of the system. *)
From Coq Require Import List Arith ZArith Bool Lia Permutation.
From Verif Require Import Prelude PreludeProofs RingSum AssembleModel AssembleProofs GatherModel GatherSpec GatherProofs
  EwcModel EwcProofs VCusProofs AsmModel AsmSpec AsmProofs RowsProofs VRowsProofs StrongModel StrongSpec StrongProofs StrongProofs2.
Import ListNotations.

Lemma on_cores_ok {X} SIZE (f : nat -> option (list X)) : (forall r, r < SIZE -> f r <> None) ->
  exists F, on_cores SIZE f = Some F /\ forall r, r < SIZE -> f r = Some (F r).
Proof.
  intros H. unfold on_cores. destruct (all_some_map f (seq 0 SIZE)) as (m & E & L & P).
  - intros r Hr. apply in_seq in Hr. apply H. lia.
  - rewrite E. eexists. split; [reflexivity|]. intros r Hr. cbv beta.
    specialize (P r r). rewrite nth_error_nth' with (d := 0) in P by (rewrite seq_length; exact Hr). rewrite seq_nth in P by exact Hr. specialize (P eq_refl).
    rewrite <- P. apply nth_error_nth'. rewrite L, seq_length. exact Hr.
Qed.
Lemma on_cores_some {X} SIZE (f : nat -> option (list X)) F : on_cores SIZE f = Some F -> forall r, r < SIZE -> f r = Some (F r).
Proof.
  unfold on_cores. intros H r Hr. destruct (all_some (map f (seq 0 SIZE))) as [m|] eqn:E; [|discriminate]. injection H as <-.
  assert (G : forall l m, all_some (map f l) = Some m -> forall i x, nth_error l i = Some x -> exists y, f x = Some y /\ nth_error m i = Some y).
  { induction l as [|a l IH]; intros m0 Em i0 x Ex; [destruct i0; discriminate|]. cbn in Em. destruct (f a) as [y|] eqn:Ea; [|discriminate].
    destruct (all_some (map f l)) as [m1|] eqn:E1; [|discriminate]. injection Em as <-. destruct i0 as [|i0]; cbn in *; [injection Ex as <-; eauto|]. eapply IH; [reflexivity|exact Ex]. }
  destruct (G _ _ E r r) as (y & Ey & Em).
  { rewrite nth_error_nth' with (d := 0) by (rewrite seq_length; exact Hr). rewrite seq_nth by exact Hr. reflexivity. }
  rewrite Ey. f_equal. symmetry. apply nth_error_nth. exact Em.
Qed.
Lemma ops_lookup {X Y} (F : nat * X -> Y) (L : list (nat * X)) e : NoDup (map fst L) ->
  ops_for (map (fun ed => (fst ed, F ed)) L) e = match lookup Nat.eqb e L with Some l => [F (e, l)] | None => [] end.
Proof.
  intros ND. destruct (lookup Nat.eqb e L) as [l|] eqn:E.
  - apply ops_one; [rewrite map_map; exact ND|]. apply in_map_iff. exists (e, l). split; [reflexivity|]. apply GatherProofs.lookup_In. exact E.
  - apply ops_none. rewrite map_map. cbn [fst]. intros I. apply GatherProofs.lookup_keys in I. destruct I as (v & Ev). congruence.
Qed.
Lemma all_some_pairs {X Y} (f : nat * X -> option Y) (F : nat * X -> Y) L : (forall ed, In ed L -> f ed = Some (F ed)) -> all_some (map f L) = Some (map F L).
Proof.
  induction L as [|x L IH]; intros H; [reflexivity|]. cbn. rewrite (H x) by (left; reflexivity). rewrite IH by (intros; apply H; right; assumption). reflexivity.
Qed.
Lemma all_some_pairs_inv {X Y} (f : X -> option Y) L m : all_some (map f L) = Some m -> forall x, In x L -> f x <> None.
Proof.
  revert m. induction L as [|a L IH]; intros m E x H; [destruct H|]. cbn in E. destruct (f a) eqn:Ea; [|discriminate].
  destruct (all_some (map f L)) eqn:E1; [|discriminate]. destruct H as [->|H]; [congruence|]. eapply IH; [reflexivity|exact H].
Qed.

Section Apply.
  Variable K : CRing.
  Add Ring KringA : (Rth K).
  Local Open Scope ring_s.
  Variables (SIZE I J : nat) (rgms cgms : list GMat) (ns ms : list nat).
  Hypothesis WN : well_numbered SIZE rgms ns.
  Hypothesis WM : well_numbered SIZE cgms ms.
  Hypothesis RG : forall g, In g rgms -> regular g.
  Hypothesis RM : forall g, In g cgms -> regular g.
  Hypothesis SC : same_cores SIZE (nth 0 rgms []) (nth 0 cgms []).
  Variables (i j : nat) (g h : GMat).
  Hypothesis Hi : nth_error rgms i = Some g.
  Hypothesis Hj : nth_error cgms j = Some h.
  Hypothesis HI : (i < I)%nat.
  Hypothesis HJ : (j < J)%nat.
  Notation si := (sum (firstn i (map gv_len rgms))).
  Notation sj := (sum (firstn j (map gv_len cgms))).
  Notation oi := (sum (firstn i ns)).
  Notation oj := (sum (firstn j ms)).

  Lemma in_elements (g' : GMat) (D : nat -> list (nat * list nat)) r : nth_error rgms i = Some g' -> in_range SIZE g' D -> (r < SIZE)%nat ->
    forallb (fun ed => MeshMapModel.mem (fst ed) (elements (nth 0 rgms []) r)) (D r) = true.
  Proof.
    intros Hg' HD Hr. apply forallb_forall. intros (e & l) H. cbn [fst]. destruct (HD r Hr) as (_ & HR). destruct (HR e l H) as (v & Ev & _).
    unfold MeshMapModel.mem. apply existsb_exists. exists e. split; [|apply Nat.eqb_refl]. apply (block_els _ _ _ WN RG g' r e (nth_error_In _ _ Hg')). apply GatherProofs.lookup_keys. eauto.
  Qed.

  (** the vector operations *)
  Lemma set_entries_ok (it : nat -> itp K) V cus : in_range SIZE g (fun r => i_dofs (it r)) -> valued SIZE (fun r => i_dofs (it r)) V ->
    exists cus', on_cores SIZE (fun r => set_entries_core K I rgms i (it r) (V r) (cus r)) = Some cus' /\
      forall r e, (r < SIZE)%nat -> dget (cus' r) e = dget (cus r) e ++ vops K rgms i (fun r => i_dofs (it r)) V r e.
  Proof.
    intros HD HV.
    assert (E : forall r, (r < SIZE)%nat -> set_entries_core K I rgms i (it r) (V r) (cus r) =
      Some (vregister_all K (cus r) (map (fun ed => (fst ed, slest (map (fun d => d + si)%nat (snd ed)) (vals K V r (fst ed)))) (i_dofs (it r))))).
    { intros r Hr. unfold set_entries_core. rewrite (proj2 (Nat.ltb_lt _ _) HI). rewrite (block_start_ok rgms i g Hi).
      rewrite (all_some_pairs _ (fun ed => (fst ed, slest (map (fun d => d + si)%nat (snd ed)) (vals K V r (fst ed))))); [reflexivity|].
      intros (e & l) H. cbn [fst snd]. specialize (HV r Hr). unfold vals. destruct (V r) as [c|].
      - destruct (HV e l H) as (vs & -> & L). rewrite L, Nat.eqb_refl. reflexivity.
      - rewrite HV in H. destruct H. }
    destruct (on_cores_ok SIZE (fun r => set_entries_core K I rgms i (it r) (V r) (cus r))) as (F & EF & HF).
    { intros r Hr. rewrite E by exact Hr. discriminate. }
    exists F. split; [exact EF|]. intros r e Hr. specialize (HF r Hr). cbv beta in HF. rewrite (E r Hr) in HF. injection HF as <-.
    unfold vregister_all. rewrite dget_register_fold. f_equal. destruct (HD r Hr) as (ND & _).
    rewrite (ops_lookup (fun ed => slest (map (fun d => d + si)%nat (snd ed)) (vals K V r (fst ed)))) by exact ND. unfold vops. destruct (lookup Nat.eqb e (i_dofs (it r))); reflexivity.
  Qed.

  (** ** the diagonal block *)
  Lemma identify_rows_ok (it : nat -> itp K) cus : in_range SIZE g (fun r => i_dofs (it r)) ->
    exists cus', on_cores SIZE (fun r => identify_core K I rgms i r (it r) (cus r)) = Some cus' /\
      forall r e, (r < SIZE)%nat -> dget (cus' r) e = dget (cus r) e ++ match lookup Nat.eqb e (i_dofs (it r)) with Some l => [ilrs (map (fun d => d + si)%nat l)] | None => [] end.
  Proof.
    intros HD.
    assert (E : forall r, (r < SIZE)%nat -> identify_core K I rgms i r (it r) (cus r) =
      Some (register_all K (cus r) (map (fun ed => (fst ed, ilrs (map (fun d => d + si)%nat (snd ed)))) (i_dofs (it r))))).
    { intros r Hr. unfold identify_core. rewrite (proj2 (Nat.ltb_lt _ _) HI). rewrite (block_start_ok rgms i g Hi).
      pose proof (in_elements g _ r Hi HD Hr) as T. cbv beta in T. destruct (i_dofs (it r)) as [|x l]; [reflexivity|]. rewrite T. reflexivity. }
    destruct (on_cores_ok SIZE (fun r => identify_core K I rgms i r (it r) (cus r))) as (F & EF & HF).
    { intros r Hr. rewrite E by exact Hr. discriminate. }
    exists F. split; [exact EF|]. intros r e Hr. specialize (HF r Hr). cbv beta in HF. rewrite (E r Hr) in HF. injection HF as <-.
    unfold register_all. rewrite dget_register_fold. f_equal. destruct (HD r Hr) as (ND & _).
    rewrite (ops_lookup (fun ed => ilrs (map (fun d => d + si)%nat (snd ed)))) by exact ND. reflexivity.
  Qed.
  (** ** the block (i, j) *)
  Lemma off_diagonal_ok (row col : nat -> itp K) cus : in_range SIZE g (fun r => i_dofs (row r)) ->
    paired_up SIZE (fun r => i_dofs (row r)) (fun r => i_dofs (col r)) ->
    exists cus', on_cores SIZE (fun r => off_diagonal_core K I J rgms cgms i j r (row r) (col r) (cus r)) = Some cus' /\
      forall r e, (r < SIZE)%nat -> dget (cus' r) e = dget (cus r) e ++ ops K rgms i (fun r => i_dofs (row r)) cgms j (fun r => i_dofs (col r)) r e.
  Proof.
    intros HD PU.
    assert (E : forall r, (r < SIZE)%nat -> off_diagonal_core K I J rgms cgms i j r (row r) (col r) (cus r) =
      Some (register_all K (cus r) (map (fun ed => (fst ed, ilrsac (map (fun d => d + si)%nat (snd ed)) (map (fun d => d + sj)%nat (dofs_at (fun r => i_dofs (col r)) r (fst ed))))) (i_dofs (row r))))).
    { intros r Hr. unfold off_diagonal_core. rewrite (proj2 (Nat.ltb_lt _ _) HI), (proj2 (Nat.ltb_lt _ _) HJ). destruct (PU r Hr) as (K1 & _ & _).
      assert (LL : length (i_dofs (col r)) = length (i_dofs (row r))) by (rewrite <- (map_length fst (i_dofs (col r))), K1, map_length; reflexivity). rewrite LL, Nat.eqb_refl. cbn [andb].
      rewrite (block_start_ok rgms i g Hi), (block_start_ok cgms j h Hj). pose proof (in_elements g _ r Hi HD Hr) as T. cbv beta in T.
      pose proof (all_some_pairs (fun ed => option_map (fun c => (fst ed, @ilrsac K (map (fun d => d + si)%nat (snd ed)) (map (fun d => d + sj)%nat c))) (lookup Nat.eqb (fst ed) (i_dofs (col r)))) (fun ed => (fst ed, ilrsac (map (fun d => d + si)%nat (snd ed)) (map (fun d => d + sj)%nat (dofs_at (fun r => i_dofs (col r)) r (fst ed))))) (i_dofs (row r))) as T2.
      destruct (i_dofs (row r)) as [|x l0]; [reflexivity|]. rewrite T. rewrite T2; [reflexivity|]. clear T2.
      intros (e & l) H. cbn [fst snd]. assert (X : exists l', lookup Nat.eqb e (i_dofs (col r)) = Some l').
        { apply GatherProofs.lookup_keys. rewrite K1. apply in_map_iff. exists (e, l). auto. }
        destruct X as (l' & El). unfold dofs_at. rewrite El. reflexivity. }
    destruct (on_cores_ok SIZE (fun r => off_diagonal_core K I J rgms cgms i j r (row r) (col r) (cus r))) as (F & EF & HF).
    { intros r Hr. rewrite E by exact Hr. discriminate. }
    exists F. split; [exact EF|]. intros r e Hr. specialize (HF r Hr). cbv beta in HF. rewrite (E r Hr) in HF. injection HF as <-.
    unfold register_all. rewrite dget_register_fold. f_equal. destruct (HD r Hr) as (ND & _).
    rewrite (ops_lookup (fun ed => ilrsac (map (fun d => d + si)%nat (snd ed)) (map (fun d => d + sj)%nat (dofs_at (fun r => i_dofs (col r)) r (fst ed))))) by exact ND.
    unfold ops. destruct (lookup Nat.eqb e (i_dofs (row r))); reflexivity.
  Qed.

  (** ilrs in the place of ilrsac: the same assembled matrices *)
  Lemma assembled_same base (cus cus' : cdict K) A : (forall r e M, (r < SIZE)%nat -> apply_all (lmat K) (cusop K) (apply_cusop K 0 1) (dget (cus r) e) M = apply_all (lmat K) (cusop K) (apply_cusop K 0 1) (dget (cus' r) e) M) ->
    assembled K SIZE rgms cgms base cus A -> assembled K SIZE rgms cgms base cus' A.
  Proof. intros E (Ms & H1 & H2). exists Ms. split; [|exact H2]. intros r e Hr He. unfold local_matrix in *. rewrite <- E by exact Hr. apply H1; assumption. Qed.
End Apply.

Lemma paired_self SIZE D : paired_up SIZE D D.
Proof.
  intros r Hr. split; [reflexivity|]. split; [reflexivity|]. intros e d c c' H1 H2. unfold partner in *.
  assert (G : forall (l : list nat) x y, In (x, y) (combine l l) -> x = y).
  { induction l as [|a l IH]; intros x y H; [destruct H|]. destruct H as [H|H]; [congruence|]. apply IH. exact H. }
  rewrite <- (G _ _ _ H1), <- (G _ _ _ H2). reflexivity.
Qed.

Section Theorems.
  Variable K : CRing.
  Add Ring KringT : (Rth K).
  Local Open Scope ring_s.

  Lemma bsum_count {A} (l : list A) (x : K) : bsum l (fun _ => x) = nmul (length l) x.
  Proof. induction l as [|a l IH]; [reflexivity|]. rewrite bsum_cons, IH. reflexivity. Qed.

  (** block (i, j): for off-diagonal blocks *)
  Lemma strong_off SIZE I J rgms cgms ns ms (WN : well_numbered SIZE rgms ns) (WM : well_numbered SIZE cgms ms)
    (RG : forall g, In g rgms -> regular g) (RM : forall g, In g cgms -> regular g) (SC : same_cores SIZE (nth 0 rgms []) (nth 0 cgms []))
    i j g h (Hi : nth_error rgms i = Some g) (Hj : nth_error cgms j = Some h) (HI : (i < I)%nat) (HJ : (j < J)%nat) (NE : i <> j) (row col : nat -> itp K) :
    let D r := i_dofs (row r) in let C r := i_dofs (col r) in let V r := i_cochains (col r) in
    in_range SIZE g D -> in_range SIZE h C -> paired_up SIZE D C -> valued SIZE D V -> saturated SIZE g D ->
    forall Ac bc, exists Ac' bc', apply_strong_BC K SIZE I J rgms cgms rgms i j row (Some col) Ac bc = Some (Ac', bc') /\
    forall Ab Bb A b, sizes_match K SIZE rgms cgms Ab -> vsizes_match K SIZE rgms Bb -> assembled K SIZE rgms cgms Ab Ac A -> vassembled K SIZE rgms Bb bc b ->
    exists A' b', assembled K SIZE rgms cgms Ab Ac' A' /\ vassembled K SIZE rgms Bb bc' b' /\
      (forall n, prescribed SIZE g D n ->
         (forall c, A' (sum (firstn i ns) + n)%nat c = bsum (places SIZE g n) (fun p => if match partner_number h D C p with Some m => c =? sum (firstn j ms) + m | None => false end then 1 else 0)) /\
         b' (sum (firstn i ns) + n)%nat = bsum (places SIZE g n) (value_or_0 D V)) /\
      (forall a, (forall n, prescribed SIZE g D n -> a <> (sum (firstn i ns) + n)%nat) -> (forall c, A' a c = A a c) /\ b' a = b a).
  Proof.
    intros D C V HD HC PU HV SAT Ac bc. destruct (n_some _ _ _ WN i g Hi) as (k & Hk). destruct (n_some _ _ _ WM j h Hj) as (kj & Hkj).
    destruct (off_diagonal_ok K SIZE I J rgms cgms ns WN RG i j g h Hi Hj HI HJ row col Ac HD PU) as (Ac' & EA & HA).
    destruct (set_entries_ok K SIZE I rgms i g Hi HI row V bc HD HV) as (bc' & EB & HB).
    exists Ac', bc'. split.
    { unfold apply_strong_BC. rewrite (proj2 (Nat.eqb_neq _ _) NE), (proj2 (Nat.ltb_lt _ _) HI), (proj2 (Nat.ltb_lt _ _) HJ). cbn [negb andb]. unfold V in EB. rewrite EA, EB. reflexivity. }
    intros Ab Bb A b SM SV AA BB.
    exists (fun a c => if hb SIZE ns i g k D a then new_row K SIZE g D ms j h C (a - sum (firstn i ns)) c else A a c), (fun a => if hb SIZE ns i g k D a then bsum (places SIZE g (a - sum (firstn i ns))) (value_or_0 D V) else b a).
    assert (HT : forall a, hb SIZE ns i g k D a = true <-> exists n, a = (sum (firstn i ns) + n)%nat /\ (n < k)%nat /\ prescribed SIZE g D n) by (intros a; eapply hb_true; eassumption).
    split; [|split; [|split]].
    - eapply mat_step; eassumption.
    - eapply vec_step; eassumption.
    - intros n P. assert (Hn : (n < k)%nat) by (destruct P as (r & e & v & d & _ & Ev & Ed & _); exact (num_lt _ _ _ WN i g Hi r e v d n k Ev Ed Hk)).
      assert (T : hb SIZE ns i g k D (sum (firstn i ns) + n) = true) by (apply HT; eauto). rewrite T. replace (sum (firstn i ns) + n - sum (firstn i ns))%nat with n by lia.
      split; [|reflexivity]. intros c. reflexivity.
    - intros a NP. assert (T : hb SIZE ns i g k D a = false).
      { destruct (hb SIZE ns i g k D a) eqn:T; [|reflexivity]. apply HT in T. destruct T as (n & E & _ & P). exfalso. apply (NP n P). exact E. }
      rewrite T. auto.
  Qed.

  (** the diagonal block: the row and the column block are of the same form and start at the same position *)
  Lemma strong_diag SIZE I J rgms cgms ns ms (WN : well_numbered SIZE rgms ns) (WM : well_numbered SIZE cgms ms)
    (RG : forall g, In g rgms -> regular g) (RM : forall g, In g cgms -> regular g) (SC : same_cores SIZE (nth 0 rgms []) (nth 0 cgms []))
    i g (Hi : nth_error rgms i = Some g) (Hj : nth_error cgms i = Some g) (HI : (i < I)%nat) (HJ : (i < J)%nat)
    (SS : sum (firstn i (map gv_len rgms)) = sum (firstn i (map gv_len cgms))) (it : nat -> itp K) :
    let D r := i_dofs (it r) in let V r := i_cochains (it r) in
    in_range SIZE g D -> valued SIZE D V -> saturated SIZE g D ->
    forall Ac bc, exists Ac' bc', apply_strong_BC K SIZE I J rgms cgms rgms i i it None Ac bc = Some (Ac', bc') /\
    forall Ab Bb A b, sizes_match K SIZE rgms cgms Ab -> vsizes_match K SIZE rgms Bb -> assembled K SIZE rgms cgms Ab Ac A -> vassembled K SIZE rgms Bb bc b ->
    exists A' b', assembled K SIZE rgms cgms Ab Ac' A' /\ vassembled K SIZE rgms Bb bc' b' /\
      (forall n, prescribed SIZE g D n ->
         (forall c, A' (sum (firstn i ns) + n)%nat c = if c =? sum (firstn i ms) + n then nmul (length (places SIZE g n)) 1 else 0) /\
         b' (sum (firstn i ns) + n)%nat = bsum (places SIZE g n) (value_or_0 D V)) /\
      (forall a, (forall n, prescribed SIZE g D n -> a <> (sum (firstn i ns) + n)%nat) -> (forall c, A' a c = A a c) /\ b' a = b a).
  Proof.
    intros D V HD HV SAT Ac bc. destruct (n_some _ _ _ WN i g Hi) as (k & Hk). destruct (n_some _ _ _ WM i g Hj) as (kj & Hkj).
    destruct (identify_rows_ok K SIZE I rgms ns WN RG i g Hi HI it Ac HD) as (Ac' & EA & HA).
    destruct (set_entries_ok K SIZE I rgms i g Hi HI it V bc HD HV) as (bc' & EB & HB).
    exists Ac', bc'. split.
    { unfold apply_strong_BC. rewrite Nat.eqb_refl, (proj2 (Nat.ltb_lt _ _) HI), (proj2 (Nat.ltb_lt _ _) HJ). cbn [andb]. unfold V in EB. rewrite EA, EB. reflexivity. }
    intros Ab Bb A b SM SV AA BB. pose proof (paired_self SIZE D) as PU.
    exists (fun a c => if hb SIZE ns i g k D a then new_row K SIZE g D ms i g D (a - sum (firstn i ns)) c else A a c), (fun a => if hb SIZE ns i g k D a then bsum (places SIZE g (a - sum (firstn i ns))) (value_or_0 D V) else b a).
    assert (HT : forall a, hb SIZE ns i g k D a = true <-> exists n, a = (sum (firstn i ns) + n)%nat /\ (n < k)%nat /\ prescribed SIZE g D n) by (intros a; eapply hb_true; eassumption).
    split; [|split; [|split]].
    - set (Aq := fun r => register_all K (Ac r) (map (fun ed => (fst ed, ilrsac (map (fun d => d + sum (firstn i (map gv_len rgms)))%nat (snd ed)) (map (fun d => d + sum (firstn i (map gv_len cgms)))%nat (snd ed)))) (D r))).
      assert (HQ : forall r e, (r < SIZE)%nat -> dget (Aq r) e = dget (Ac r) e ++ ops K rgms i D cgms i D r e).
      { intros r e Hr. unfold Aq, register_all. rewrite dget_register_fold. f_equal. destruct (HD r Hr) as (ND & _).
        rewrite (ops_lookup (fun ed => ilrsac (map (fun d => d + sum (firstn i (map gv_len rgms)))%nat (snd ed)) (map (fun d => d + sum (firstn i (map gv_len cgms)))%nat (snd ed)))) by exact ND.
        unfold ops, dofs_at. destruct (lookup Nat.eqb e (D r)); reflexivity. }
      apply (assembled_same K SIZE rgms cgms Ab Aq Ac').
      + intros r e M Hr. rewrite (HQ r e Hr), (HA r e Hr), !apply_all_app. destruct (apply_all _ _ _ (dget (Ac r) e) M) as [M1|]; [|reflexivity].
        unfold ops, dofs_at. fold (D r). destruct (lookup Nat.eqb e (D r)) as [l|]; [|reflexivity]. cbn [apply_all]. rewrite ilrs_ilrsac, <- SS. reflexivity.
      + eapply mat_step; eassumption.
    - eapply vec_step; eassumption.
    - intros n P. assert (Hn : (n < k)%nat) by (destruct P as (r & e & v & d & _ & Ev & Ed & _); exact (num_lt _ _ _ WN i g Hi r e v d n k Ev Ed Hk)).
      assert (T : hb SIZE ns i g k D (sum (firstn i ns) + n) = true) by (apply HT; eauto). rewrite T. replace (sum (firstn i ns) + n - sum (firstn i ns))%nat with n by lia.
      split; [|reflexivity]. intros c. unfold new_row.
      transitivity (bsum (places SIZE g n) (fun _ => if c =? sum (firstn i ms) + n then (1 : K) else 0)).
      + apply bsum_ext. intros ((r & e) & d) Hp. apply (in_places _ _ _ WN i g Hi) in Hp. destruct Hp as (Hr & v & Ev & Ed).
        unfold one_at, partner_number. assert (In d (dofs_at D r e)) by (eapply SAT; eassumption).
        destruct (in_combine_some (dofs_at D r e) (dofs_at D r e) d eq_refl H) as (c' & Hc').
        rewrite (partner_of_ok SIZE D D PU r e d c' Hr Hc'), Ev.
        assert (G : forall (l : list nat) x y, In (x, y) (combine l l) -> x = y).
        { induction l as [|a l IH]; intros x y Hx; [destruct Hx|]. destruct Hx as [Hx|Hx]; [congruence|]. apply IH. exact Hx. }
        rewrite <- (G _ _ _ Hc'), Ed. reflexivity.
      + rewrite bsum_count. destruct (c =? sum (firstn i ms) + n); [reflexivity|]. clear. induction (length (places SIZE g n)) as [|m IH]; [reflexivity|]. cbn [nmul]. rewrite IH. ring.
    - intros a NP. assert (T : hb SIZE ns i g k D a = false).
      { destruct (hb SIZE ns i g k D a) eqn:T; [|reflexivity]. apply HT in T. destruct T as (n & E & _ & P). exfalso. apply (NP n P). exact E. }
      rewrite T. auto.
  Qed.
End Theorems.
