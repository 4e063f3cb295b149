(** Proofs for C66: solutions of the system; the dofs of the cores together. *)
From Coq Require Import List Arith Bool Lia Relations.
From Verif Require Import Prelude PreludeProofs RingSum SpaceModel SpaceSpec SpaceProofs MeshModel MeshSpec MeshProofs MeshProofs3 MeshMapModel MeshMapSpec MeshMapProofs MeshMapProofs2 MeshMapProofs3 NumModel NumSpec NumProofs NumProofs3 NumProofs4 NumProofs5 NumProofs6 NhtModel NhtProofs2
  AssembleModel GatherModel GatherSpec GatherProofs EwcModel AsmModel AsmSpec StrongModel StrongSpec StrongProofs StrongProofs2 StrongProofs3 StrongProofs4 StrongProofs5.
Import ListNotations.

Lemma block_lt i : forall ns k n, nth_error ns i = Some k -> n < k -> sum (firstn i ns) + n < sum ns.
Proof.
  induction i as [|j IH]; intros [|a l] k n Hk Hn; try discriminate.
  - injection Hk as ->. rewrite sum_cons. cbn [firstn]. change (sum []) with 0. lia.
  - cbn [firstn]. rewrite !sum_cons. specialize (IH l k n Hk Hn). lia.
Qed.
Section Solution.
  Variable K : CRing.
  Add Ring KringS : (Rth K).
  Local Open Scope ring_s.
  Hypothesis INJ : n_times_injective K.
  Lemma nmul_0 m : nmul m (0 : K) = 0. Proof. induction m as [|m IH]; [reflexivity|]. cbn [nmul]. rewrite IH. ring. Qed.
  Lemma one_column N (i : nat) (k x : K) (f : nat -> K) : (i < N)%nat -> (forall c, f c = if c =? i then k else 0) -> forall y : nat -> K, bsum (seq 0 N) (fun c => rmul (f c) (y c)) = rmul k (y i).
  Proof.
    intros Hi Hf y. transitivity (bsum (seq 0 N) (fun c => if c =? i then rmul k (y c) else 0)).
    - apply bsum_ext. intros c _. rewrite Hf. destruct (c =? i); ring.
    - clear Hf. assert (G : forall s n, (s <= i < s + n)%nat -> bsum (seq s n) (fun c => if c =? i then rmul k (y c) else 0) = rmul k (y i)).
      { intros s n. revert s. induction n as [|n IH]; intros s Hs; [lia|]. cbn [seq]. rewrite bsum_cons. destruct (Nat.eqb_spec s i) as [->|Ns].
        - assert (Z : bsum (seq (S i) n) (fun c => if c =? i then rmul k (y c) else 0) = 0).
          { transitivity (bsum (seq (S i) n) (fun _ => (0 : K))); [|rewrite bsum_count; apply nmul_0]. apply bsum_ext. intros c Hc. apply in_seq in Hc. destruct (Nat.eqb_spec c i); [lia|reflexivity]. }
          rewrite Z. ring.
        - rewrite IH by lia. ring. }
      apply G. lia.
  Qed.

  Lemma strong_solution SIZE I J gms ns (WN : well_numbered SIZE gms ns) (RG : forall g, In g gms -> regular g)
    i g (Hi : nth_error gms i = Some g) (HI : (i < I)%nat) (HJ : (i < J)%nat) (it : nat -> itp K) (w : nat -> K) :
    let D r := i_dofs (it r) in let V r := i_cochains (it r) in
    in_range SIZE g D -> valued SIZE D V -> saturated SIZE g D -> values_are SIZE g D V w ->
    forall Ac bc, exists Ac' bc', apply_strong_BC K SIZE I J gms gms gms i i it None Ac bc = Some (Ac', bc') /\
    forall Ab Bb A b, sizes_match K SIZE gms gms Ab -> vsizes_match K SIZE gms Bb -> assembled K SIZE gms gms Ab Ac A -> vassembled K SIZE gms Bb bc b ->
    exists A' b', assembled K SIZE gms gms Ab Ac' A' /\ vassembled K SIZE gms Bb bc' b' /\
      forall x, solves K (sum ns) A' b' x <-> solves_with (sum ns) (sum (firstn i ns)) (prescribed SIZE g D) w A b x.
  Proof.
    intros D V HD HV SAT HW Ac bc. assert (SC : same_cores SIZE (nth 0 gms []) (nth 0 gms [])) by (intros r _ e; tauto).
    destruct (strong_diag K SIZE I J gms gms ns ns WN WN RG RG SC i g Hi Hi HI HJ eq_refl it HD HV SAT Ac bc) as (Ac' & bc' & EQ & H). exists Ac', bc'. split; [exact EQ|].
    intros Ab Bb A b SM SV AA BB. destruct (H Ab Bb A b SM SV AA BB) as (A' & b' & H1 & H2 & P1 & P2). exists A', b'. split; [exact H1|]. split; [exact H2|]. clear H EQ.
    destruct (n_some _ _ _ WN i g Hi) as (k & Hk). fold D in P1, P2. fold V in P1.
    assert (ROW : forall n x, prescribed SIZE g D n -> (bsum (seq 0 (sum ns)) (fun c => rmul (A' (sum (firstn i ns) + n)%nat c) (x c)) = b' (sum (firstn i ns) + n)%nat <-> x (sum (firstn i ns) + n)%nat = w n)).
    { intros n x P. destruct (P1 n P) as (R1 & R2).
      assert (Hn : (n < k)%nat) by (destruct P as (r & e & v & d & _ & Ev & Ed & _); exact (num_lt _ _ _ WN i g Hi r e v d n k Ev Ed Hk)).
      assert (Hlt : (sum (firstn i ns) + n < sum ns)%nat).
      { exact (block_lt i ns k n Hk Hn). }
      rewrite (one_column (sum ns) (sum (firstn i ns) + n)%nat (nmul (length (places SIZE g n)) 1) 0 _ Hlt R1 x). rewrite R2.
      assert (SV2 : bsum (places SIZE g n) (value_or_0 D V) = nmul (length (places SIZE g n)) (w n)).
      { rewrite <- (bsum_count K (places SIZE g n) (w n)). apply bsum_ext. intros ((r & e) & d) Hp. apply (in_places _ _ _ WN i g Hi) in Hp. destruct Hp as (Hr & v & Ev & Ed).
        unfold value_or_0. rewrite (HW r e v d n Hr Ev Ed); [reflexivity|]. exact (SAT r e v d n Hr Ev Ed P). }
      rewrite SV2, <- nmul_mul.
      assert (NE : exists m, length (places SIZE g n) = S m).
      { destruct P as (r & e & v & d & Hr & Ev & Ed & _). assert (Hp : In (r, e, d) (places SIZE g n)) by (apply (in_places _ _ _ WN i g Hi); eauto). destruct (places SIZE g n); [destruct Hp|]. cbn. eauto. }
      destruct NE as (m & ->). split; [apply INJ|intros ->; reflexivity]. }
    assert (PD : forall a, (exists n, prescribed SIZE g D n /\ a = (sum (firstn i ns) + n)%nat) \/ (forall n, prescribed SIZE g D n -> a <> (sum (firstn i ns) + n)%nat)).
    { intros a. destruct (hb SIZE ns i g k D a) eqn:T.
      - left. apply (hb_true _ _ _ WN i g k Hi D) in T. destruct T as (n & E & _ & P). eauto.
      - right. intros n P E. assert (Hn : (n < k)%nat) by (destruct P as (r & e & v & d & _ & Ev & Ed & _); exact (num_lt _ _ _ WN i g Hi r e v d n k Ev Ed Hk)).
        rewrite (proj2 (hb_true _ _ _ WN i g k Hi D a)) in T; [discriminate|]. eauto. }
    intros x. split.
    - intros SO. split.
      + intros n P. apply ROW; [exact P|]. apply SO.
        assert (Hn : (n < k)%nat) by (destruct P as (r & e & v & d & _ & Ev & Ed & _); exact (num_lt _ _ _ WN i g Hi r e v d n k Ev Ed Hk)).
        exact (block_lt i ns k n Hk Hn).
      + intros a Ha NP. destruct (P2 a NP) as (R1 & R2). rewrite <- R2, <- (SO a Ha). apply bsum_ext. intros c _. rewrite R1. reflexivity.
    - intros (S1 & S2) a Ha. destruct (PD a) as [(n & P & ->)|NP].
      + apply ROW; auto.
      + destruct (P2 a NP) as (R1 & R2). rewrite R2, <- (S2 a Ha NP). apply bsum_ext. intros c _. rewrite R1. reflexivity.
  Qed.
  (** constants *)
  Lemma constant_entries I' gms i (it : itp K) v cus : NoDup (map fst (i_dofs it)) ->
    set_constant_core K I' gms i it v cus = set_entries_core K I' gms i it (Some (map (fun ed => (fst ed, map (fun _ => v) (snd ed))) (i_dofs it))) cus.
  Proof.
    intros ND. unfold set_constant_core, set_entries_core. destruct (i <? I'); [|reflexivity]. destruct (block_start gms i) as [st|]; [|reflexivity].
    rewrite (all_some_pairs _ (fun ed => (fst ed, slest (map (fun d => d + st)%nat (snd ed)) (map (fun _ => v) (snd ed))))); [reflexivity|].
    intros (e & l) H. cbn [fst snd]. assert (E : lookup Nat.eqb e (map (fun ed => (fst ed, map (fun _ : nat => v) (snd ed))) (i_dofs it)) = Some (map (fun _ => v) l)).
    { apply GatherProofs.lookup_In_iff; [rewrite map_map; exact ND|]. apply in_map_iff. exists (e, l). auto. }
    rewrite E, map_length, Nat.eqb_refl. reflexivity.
  Qed.
End Solution.

(** * the dofs on all cores *)
Lemma choose {A} (d : A) n (P : nat -> A -> Prop) : (forall r, r < n -> exists x, P r x) -> exists f, forall r, r < n -> P r (f r).
Proof.
  induction n as [|n IH]; intros H; [exists (fun _ => d); intros; lia|]. destruct IH as (f & Hf); [intros; apply H; lia|]. destruct (H n ltac:(lia)) as (x & Hx).
  exists (fun r => if r =? n then x else f r). intros r Hr. destruct (Nat.eqb_spec r n) as [->|N]; [exact Hx|]. apply Hf. lia.
Qed.
Lemma all_dofs tuple bnames ms q k p : (forall l x, In x (tuple l) <-> In x l) -> (forall e row, In (e, row) (concat ms) -> length row = 6) -> length p = 3 -> Forall (fun n => 1 <= n) p ->
  forall iEPs, involved_parts tuple bnames ms q = Some iEPs -> length iEPs = length ms /\ exists D, forall r iEP, nth_error iEPs r = Some iEP ->
    parse_dofs (local_side k p) iEP = Some (D r) /\ NoDup (map fst (D r)) /\ (forall e, In e (map fst (D r)) -> exists m row, nth_error ms r = Some m /\ In (e, row) m) /\
    forall e d, In d (dofs_at D r e) <-> boundary_dof p (types k 3) ms (asked q) r e d.
Proof.
  intros TP L L3 Fp iEPs E. destruct (dofs_ok tuple bnames ms q k p TP L L3 Fp iEPs E) as (LL & H). split; [exact LL|].
  destruct (choose [] (length iEPs) (fun r D => forall iEP, nth_error iEPs r = Some iEP -> parse_dofs (local_side k p) iEP = Some D /\ NoDup (map fst D) /\
    (forall e, In e (map fst D) -> exists m row, nth_error ms r = Some m /\ In (e, row) m) /\ forall e d, In d (inside D e) <-> boundary_dof p (types k 3) ms (asked q) r e d)) as (D & HD).
  { intros r Hr. apply nth_error_Some in Hr. destruct (nth_error iEPs r) as [iEP|] eqn:Er; [|congruence]. destruct (H r iEP Er) as (D & HD). exists D. intros iEP' E'. assert (iEP' = iEP) by congruence. subst. exact HD. }
  exists D. intros r iEP Er. exact (HD r ltac:(apply nth_error_Some; rewrite Er; discriminate) iEP Er).
Qed.
Lemma ready_if tuple bnames ms q k p N g : (forall l x, In x (tuple l) <-> In x l) -> (forall e row, In (e, row) (concat ms) -> length row = 6) -> length p = 3 -> Forall (fun n => 1 <= n) p ->
  map fst (concat ms) = seq 0 N -> map (map fst) g = map (map fst) ms -> (forall e v, In (e, v) (concat g) -> length v = length (cells p (types k 3))) ->
  (forall D, (forall r e d, r < length g -> (In d (dofs_at D r e) <-> boundary_dof p (types k 3) ms (asked q) r e d)) -> saturated (length g) g D) ->
  forall iEPs, involved_parts tuple bnames ms q = Some iEPs -> ready k p ms q iEPs g.
Proof.
  intros TP L L3 Fp KK KM TT HS iEPs E. destruct (all_dofs tuple bnames ms q k p TP L L3 Fp iEPs E) as (LL & D & HD). destruct (map_fst_concat ms g KM) as (LG & _).
  assert (HX : forall r, r < length g -> exists iEP, nth_error iEPs r = Some iEP). { intros r Hr. assert (Hr' : r < length iEPs) by (eapply Nat.lt_le_trans; [exact Hr|]; rewrite LL; apply Nat.eq_le_incl; exact LG). apply nth_error_Some in Hr'. destruct (nth_error iEPs r); [eauto|congruence]. }
  assert (HD' : forall r e d, r < length g -> (In d (dofs_at D r e) <-> boundary_dof p (types k 3) ms (asked q) r e d)) by (intros r e d Hr; destruct (HX r Hr) as (iEP & Er); apply (HD r iEP Er)).
  exists D. split; [|split; [|split; [apply HS; exact HD'|exact HD']]].
  - intros r Hr. destruct (HX r Hr) as (iEP & Er). exists iEP. split; [exact Er|]. apply (HD r iEP Er).
  - apply (in_range_ok k p ms g (asked q) KM TT D HD'). intros r Hr. destruct (HX r Hr) as (iEP & Er). destruct (HD r iEP Er) as (_ & A & B & _). auto.
Qed.
