(** Proofs about MeshMapModel: the region map in terms of the corners. *)
From Coq Require Import List Arith Bool Lia.
From Verif Require Import Prelude SpaceModel MeshModel MeshSpec MeshMapSpec MeshMapModel MeshMapProofs.
Import ListNotations.

Lemma corners_points corner r i : i < 6 -> corners_of corner r i = side_points corner r i.
Proof. intros H. do 6 (destruct i as [|i]; [reflexivity|]). lia. Qed.
Lemma attached_sharing corner nrs r i n : i < 6 -> (In n (attached_regions corner nrs r i) <-> sharing corner nrs r i n).
Proof.
  intros H. rewrite attached_In. unfold sharing. split; intros (A & B & ii & C & D); refine (conj A (conj B _)); exists ii; (split; [exact C|]).
  - rewrite <- !corners_points by assumption. exact D.
  - rewrite !corners_points by assumption. exact D.
Qed.
Section RM.
  Context (corner : nat -> nat -> nat) (nrs : nat) (bnames : list nat) (bsides : list (nat * (nat * nat))).
  Context (HB : forall b, In b bnames -> nrs <= b) (HS : forall x, In x bsides -> In (fst x) bnames /\ snd (snd x) < 6).
  Context (m : rmap) (E : region_map corner nrs bnames bsides = Some m).
  Theorem side_beside r i : r < nrs -> i < 6 -> exists n, m r i = Name n /\
    ((In n bnames /\ In (n, (r, i)) bsides) \/ (~ In n bnames /\ m n (facing i) = Name r /\ forall n', sharing corner nrs r i n' <-> n' = n)).
  Proof.
    intros Hr Hi. destruct (map_side corner nrs bnames bsides HB HS m E r i Hr Hi) as (n & En & C). exists n. split; [exact En|]. destruct C as [C|(A & B & C & D & F & _)]; [left; exact C|right].
    refine (conj C (conj D _)). intros n'. rewrite <- attached_sharing by exact Hi. rewrite F. cbn. intuition.
  Qed.
  Theorem facing_corners r i n : r < nrs -> i < 6 -> m r i = Name n -> ~ In n bnames ->
    (forall jj n', jj < 6 -> sharing corner nrs r jj n' -> at_side bsides r jj = []) -> side_points corner r i = side_points corner n (facing i).
  Proof.
    intros Hr Hi En NB NC. assert (Hf : facing i < 6) by (do 6 (destruct i as [|i]; [cbn; lia|]); lia). rewrite <- !corners_points by assumption. apply (map_corners corner nrs bnames bsides HB HS m E r i n Hr Hi En NB).
    intros jj Hj NE. destruct (attached_regions corner nrs r jj) as [|n' l] eqn:El; [contradiction|]. apply (NC jj n' Hj). apply attached_sharing; [exact Hj|]. rewrite El. now left.
  Qed.
End RM.
