(** Proofs about NumModel: the numbers of the first elements. *)
From Coq Require Import List Arith Bool Lia Relations.
From Verif Require Import Prelude PreludeProofs SpaceModel SpaceSpec SpaceProofs MeshModel MeshMapModel MeshMapProofs2 TraceModel TraceProofs TraceProofs2 TraceProofs3 NumModel NumSpec NumProofs NumProofs2 NumProofs3.
Import ListNotations.

Lemma in_maxl m l : m < maxl (map S l) <-> exists x, In x l /\ m <= x.
Proof.
  induction l as [|y l IH]; cbn [map maxl fold_right].
  - split; [intros H; cbn in H; lia|intros (x & [] & _)].
  - change (m < Nat.max (S y) (maxl (map S l)) <-> exists x, In x (y :: l) /\ m <= x). split.
    + intros H. destruct (Nat.lt_ge_cases m (S y)) as [A|A]; [exists y; split; [now left|lia]|].
      destruct (proj1 IH) as (x & Hx & Lx); [lia|]. exists x. split; [now right|exact Lx].
    + intros (x & [->|Hx] & Lx); [lia|]. assert (m < maxl (map S l)) by (apply IH; eauto). lia.
Qed.
Section Prefix.
  Variables (k : nform) (p : list nat) (ms : list emap) (N : nat).
  Hypothesis HL : map fst (concat ms) = seq 0 N.
  Hypothesis HR : forall e row, In (e, row) (concat ms) -> length row = 2 * length p.
  Variable gms : list (list (nat * list nat)).
  Hypothesis HG : naive k p ms = Some gms.
  Theorem naive_prefixed : prefixed (concat gms).
  Proof.
    destruct (got k p ms N HL HR gms HG) as (num & K & St & Rg & Eg). assert (IG := in_gm k p ms N HL gms num Eg).
    assert (IC : forall q, In q (cellsF (shapes_of k p)) <-> place k p q) by (intros [c i]; apply in_cellsF).
    assert (A : forall e f q m, f < e -> f < N -> place k p q -> m <= num f q -> exists g r, g < e /\ g < N /\ place k p r /\ num g r = m).
    { intros e f q m Hf HN Hq Hm. assert (Hk : num f q < K) by (apply Rg; eauto). assert (X := proj1 (Rg m) ltac:(lia)). destruct X as (g & r & Hg & Hr & E).
      revert r Hr E. induction g as [g IH] using lt_wf_ind. intros r Hr E. destruct (Nat.lt_ge_cases g e) as [L|L]; [exists g, r; auto|].
      destruct (St g r Hg Hr) as [(g' & r' & L' & Hr' & _ & E')|(_ & H & _)].
      - apply (IH g' L' ltac:(lia) r' Hr'). congruence.
      - specialize (H f q ltac:(lia) Hq). lia. }
    intros e. exists (maxl (map S (flat_map snd (filter (fun ev => fst ev <? e) (concat gms))))). intros m. rewrite in_maxl. split.
    - intros (x & Hx & Lx). apply in_flat_map in Hx. destruct Hx as ([f v] & Hf & Hv). apply filter_In in Hf. destruct Hf as [Hf Lf]. cbn [fst snd] in *. apply Nat.ltb_lt in Lf.
      apply IG in Hf. destruct Hf as [HN ->]. apply in_map_iff in Hv. destruct Hv as (q & <- & Hq). destruct (A e f q m Lf HN (proj1 (IC q) Hq) Lx) as (g & r & Lg & HgN & Hr & <-).
      exists g, (map (num g) (cellsF (shapes_of k p))). refine (conj Lg (conj _ _)); [apply IG; auto|]. apply in_map. apply IC. exact Hr.
    - intros (f & v & Lf & Hf & Hv). exists m. split; [|lia]. apply in_flat_map. exists (f, v). split; [|exact Hv]. apply filter_In. split; [exact Hf|]. apply Nat.ltb_lt. exact Lf.
  Qed.
End Prefix.
