(** Properties C10-C13: chaining of gathering matrices. *)
From Coq Require Import List Arith ZArith Bool Lia.
From Coq Require String.
Import (notations) String.
From Verif Require Import Prelude GatherModel GatherSpec GatherProofs SequentProofs FindProofs CacheKeyProofs.
Import ListNotations.

(** C10: the local vector of an element is the concatenation of the shifted local vectors *)
Theorem C10_silly_local_vectors : forall SIZE gms ns, well_numbered SIZE gms ns ->
  forall r e, r < SIZE -> In e (elements (nth 0 gms []) r) ->
  CGM_getitem SIZE gms Silly r e =
    Some (concat (map (fun jv => map (fun d => d + sum (firstn (fst jv) ns)) (snd jv))
                      (enumerate (local_vectors gms r e)))).
Proof. exact silly_value. Qed.
Print Assumptions C10_silly_local_vectors.

(** exactly 0 .. sum ns - 1 is covered and the total is reported *)
Theorem C10_silly_covers : forall SIZE gms ns, well_numbered SIZE gms ns ->
  CGM_global_num_dofs SIZE gms = Some (sum ns) /\
  forall m, (exists r e v, CGM_getitem SIZE gms Silly r e = Some v /\ In m v) <-> m < sum ns.
Proof. exact (fun S g n W => conj (total_ok S g n W) (silly_cover S g n W)). Qed.
Print Assumptions C10_silly_covers.

(** distinct (matrix, dof) pairs get distinct numbers *)
Theorem C10_silly_injective : forall ns j1 d1 j2 d2,
  j1 < length ns -> j2 < length ns -> d1 < nth j1 ns 0 -> d2 < nth j2 ns 0 ->
  d1 + sum (firstn j1 ns) = d2 + sum (firstn j2 ns) -> j1 = j2 /\ d1 = d2.
Proof. exact offset_inj. Qed.
Print Assumptions C10_silly_injective.

(** two matrices on three elements over two cores *)
Definition ex_gms : list GMat :=
  [ [ [(0, [0; 1]); (1, [1; 2])]; [(2, [2; 3])] ];
    [ [(0, [0]); (1, [1])]; [(2, [2])] ] ].
Example C10_ex : map (fun e => CGM_getitem 2 ex_gms Silly (e / 2) e) [0; 1; 2] =
  [Some [0; 1; 4]; Some [1; 2; 5]; Some [2; 3; 6]].
Proof. reflexivity. Qed.
Example C10_ex_hypotheses : well_numbered 2 ex_gms [4; 3].
Proof.
  assert (G : forall j g, nth_error ex_gms j = Some g -> (j = 0 /\ g = nth 0 ex_gms []) \/ (j = 1 /\ g = nth 1 ex_gms [])).
  { intros [|[|j]] g E; simpl in E; [injection E as <-; left; auto|injection E as <-; right; auto|destruct j; discriminate]. }
  assert (I : forall g, In g ex_gms -> g = nth 0 ex_gms [] \/ g = nth 1 ex_gms []) by (intros g [<-|[<-|[]]]; auto).
  constructor.
  - discriminate.
  - reflexivity.
  - intros g H. apply I in H. destruct H; subst; reflexivity.
  - intros g r H. apply I in H. destruct r as [|[|[|r]]]; destruct H; subst; repeat constructor; simpl; intuition lia.
  - intros g g' r e H H'. apply I in H. apply I in H'. destruct r as [|[|[|r]]]; destruct H, H'; subst; simpl; auto.
  - intros g r e v H E. apply I in H. destruct r as [|[|[|r]]]; destruct e as [|[|[|e]]]; destruct H; subst; simpl in E; try discriminate;
      injection E as <-; discriminate.
  - intros j g n E En. destruct (G j g E) as [(-> & ->)|(-> & ->)]; simpl in En; injection En as <-; (split; [lia|]); intros d; split.
    + intros (r & e & v & Ev & Id). destruct r as [|[|[|r]]]; destruct e as [|[|[|e]]]; simpl in Ev; try discriminate;
        injection Ev as <-; simpl in Id; intuition lia.
    + intros H. destruct d as [|[|[|[|d]]]]; [exists 0, 0, [0; 1]|exists 0, 1, [1; 2]|exists 1, 2, [2; 3]|exists 1, 2, [2; 3]|lia];
        (split; [reflexivity|simpl; auto]).
    + intros (r & e & v & Ev & Id). destruct r as [|[|[|r]]]; destruct e as [|[|[|e]]]; simpl in Ev; try discriminate;
        injection Ev as <-; simpl in Id; intuition lia.
    + intros H. destruct d as [|[|[|d]]]; [exists 0, 0, [0]|exists 0, 1, [1]|exists 1, 2, [2]|lia];
        (split; [reflexivity|simpl; auto]).
Qed.

(** C11: 'sequent' is a renumbering of 'silly' when every matrix numbers its dofs in visiting order *)
Theorem C11_sequent_renumbers : forall SIZE gms ns, well_numbered SIZE gms ns ->
  (forall g, In g gms -> first_come_numbering (visited SIZE (nth 0 gms []) g)) ->
  (forall r e, r < SIZE -> In e (elements (nth 0 gms []) r) ->
     exists v w, CGM_getitem SIZE gms Silly r e = Some v /\ CGM_getitem SIZE gms Sequent r e = Some w /\
       length v = length w) /\
  (forall r1 e1 v1 w1 i1 a1 b1 r2 e2 v2 w2 i2 a2 b2,
     CGM_getitem SIZE gms Silly r1 e1 = Some v1 -> CGM_getitem SIZE gms Sequent r1 e1 = Some w1 ->
     CGM_getitem SIZE gms Silly r2 e2 = Some v2 -> CGM_getitem SIZE gms Sequent r2 e2 = Some w2 ->
     nth_error v1 i1 = Some a1 -> nth_error w1 i1 = Some b1 ->
     nth_error v2 i2 = Some a2 -> nth_error w2 i2 = Some b2 ->
     (a1 = a2 <-> b1 = b2)) /\
  (forall m, (exists r e w, CGM_getitem SIZE gms Sequent r e = Some w /\ In m w) <-> m < sum ns).
Proof. exact sequent_renumbering. Qed.
Print Assumptions C11_sequent_renumbers.

Example C11_ex : map (fun e => CGM_getitem 2 ex_gms Sequent (e / 2) e) [0; 1; 2] =
  [Some [0; 1; 2]; Some [1; 3; 4]; Some [3; 5; 6]].
Proof. reflexivity. Qed.

(** and not in general: two different dofs of one numbering get one number in the other *)
Theorem C11_sequent_any_numbering_refuted :
  exists gms ns, well_numbered 1 gms ns /\
    exists e1 e2 v1 w1 v2 w2 i1 i2 a1 a2 b,
      CGM_getitem 1 gms Silly 0 e1 = Some v1 /\ CGM_getitem 1 gms Sequent 0 e1 = Some w1 /\
      CGM_getitem 1 gms Silly 0 e2 = Some v2 /\ CGM_getitem 1 gms Sequent 0 e2 = Some w2 /\
      nth_error v1 i1 = Some a1 /\ nth_error v2 i2 = Some a2 /\ a1 <> a2 /\
      nth_error w1 i1 = Some b /\ nth_error w2 i2 = Some b.
Proof. exact sequent_collision. Qed.
Print Assumptions C11_sequent_any_numbering_refuted.

(** C12: the search in a chained matrix never raises for a valid dof, finds only true occurrences (at
    their first local position) and, unless the cap N is reached, all of them. *)
Theorem C12_chain_find_is_search : forall SIZE gms ns, well_numbered SIZE gms ns ->
  (forall g, In g gms -> regular g) ->
  forall r N m, r < SIZE -> N <> Some 0 ->
  (- Z.of_nat (sum ns) <= m < Z.of_nat (sum ns))%Z ->
  let M := Z.to_nat (if (m <? 0)%Z then m + Z.of_nat (sum ns) else m)%Z in
  match CGM_find SIZE gms r N m with
  | Raised => False
  | NotFound => forall e v, CGM_getitem SIZE gms Silly r e = Some v -> ~ In M v
  | Found (ELE, idx) =>
      ELE <> [] /\ NoDup ELE /\
      Forall2 (fun e i => exists v, CGM_getitem SIZE gms Silly r e = Some v /\ first_at v i M) ELE idx /\
      match N with
      | None => forall e v, CGM_getitem SIZE gms Silly r e = Some v -> In M v -> In e ELE
      | Some n => length ELE <= n /\ (length ELE < n ->
                    forall e v, CGM_getitem SIZE gms Silly r e = Some v -> In M v -> In e ELE)
      end
  end.
Proof. exact CGM_find_spec. Qed.
Print Assumptions C12_chain_find_is_search.

Theorem C12_find_is_search : forall g r d, NoDup (elements g r) ->
  match GM_find g r d with
  | Raised => exists e v i j, gv_of g r e = Some v /\ i <> j /\ nth_error v i = Some d /\ nth_error v j = Some d
  | NotFound => forall e v, gv_of g r e = Some v -> ~ In d v
  | Found (ELE, idx) => ELE <> [] /\ NoDup ELE /\
      Forall2 (fun e i => exists v, gv_of g r e = Some v /\ nth_error v i = Some d /\
                 forall i', nth_error v i' = Some d -> i' = i) ELE idx /\
      forall e v, gv_of g r e = Some v -> In d v -> In e ELE
  end.
Proof. exact GM_find_spec. Qed.
Print Assumptions C12_find_is_search.

Example C12_ex : CGM_find 2 ex_gms 0 None 1 = Found ([0; 1], [1; 0]) /\
  CGM_find 2 ex_gms 0 None (-2) = Found ([1], [2]) /\ CGM_find 2 ex_gms 0 None 3 = NotFound /\
  CGM_find 2 ex_gms 0 (Some 1) 1 = Found ([0], [1]) /\
  GM_find (nth 0 ex_gms []) 0 1 = Found ([0; 1], [1; 0]).
Proof. repeat split. Qed.

(** C13: for every history, with distinct equally long stamps of the live matrices *)
Theorem C13_chain_cache_equal_lengths : forall Obj (stamp : Obj -> String.string) cache L gms m,
  reachable stamp cache -> distinct_stamps stamp (live cache gms) L -> In m methods ->
  fst (chaining_call Obj stamp cache gms m) = mkCGM Obj gms m.
Proof. exact reachable_methods_ok. Qed.
Print Assumptions C13_chain_cache_equal_lengths.

(** distinct stamps alone are not enough *)
Theorem C13_chain_cache_refuted : exists (stamp : nat -> String.string) cache gms m,
  reachable stamp cache /\ In m methods /\
  (forall o o', In o (live cache gms) -> In o' (live cache gms) -> stamp o = stamp o' -> o = o') /\
  fst (chaining_call nat stamp cache gms m) <> mkCGM nat gms m.
Proof. exact stamp_collision. Qed.
Print Assumptions C13_chain_cache_refuted.

Example C13_ex :
  let stamp := fun n => match n with 0 => "17"%string | 1 => "23"%string | _ => "31"%string end in
  let c1 := snd (chaining_call nat stamp [] [0; 1] "silly"%string) in
  let c2 := snd (chaining_call nat stamp c1 [1; 0] "silly"%string) in
  fst (chaining_call nat stamp c2 [0; 1] "silly"%string) = mkCGM nat [0; 1] "silly"%string /\ length c2 = 2 /\
  length (snd (chaining_call nat stamp (snd (chaining_call nat stamp c2 [2] "silly"%string)) [2; 0] "sequent"%string)) = 3.
Proof. repeat split. Qed.
