(* The edge functions of a basis are symmetric if the nodal functions are. *)
From Coq Require Import Reals List Lia Lra Arith.
From Verif Require Import TfiProofs DiscSpec DiscProofs2 ReconModel ReconSpec ReconProofs ReconProofs2 TreconSpec TreconProofs5.
Import ListNotations.
Open Scope R_scope.

Section Basis.
Variables (n : list R) (P : Poly1).
Hypothesis B : basis_of n P.
Notation p := (pdeg P).
Hypothesis N : forall i x, (i <= p)%nat -> node_fn P (p - i) (- x) = node_fn P i x.
Lemma edge_symmetric i x : (i < p)%nat -> edge_fn P (p - 1 - i) (- x) = edge_fn P i x.
Proof.
  intros Hi. destruct B as (_ & _ & D).
  pose proof (D (fun k => if (k <=? i)%nat then 1 else 0) x) as D1. cbv beta in D1.
  pose proof (D (fun k => if (k <=? p - 1 - i)%nat then 0 else 1) (- x)) as D2. cbv beta in D2.
  rewrite (rsum_one p i) in D1; [|exact Hi|].
  2:{ intros k Hk Ne. destruct (Nat.leb_spec (S k) i), (Nat.leb_spec k i); try lia; ring. }
  rewrite (rsum_one p (p - 1 - i)) in D2; [|lia|].
  2:{ intros k Hk Ne. destruct (Nat.leb_spec (S k) (p - 1 - i)), (Nat.leb_spec k (p - 1 - i)); try lia; ring. }
  destruct (Nat.leb_spec (S i) i); [lia|]. destruct (Nat.leb_spec i i); [|lia].
  destruct (Nat.leb_spec (S (p - 1 - i)) (p - 1 - i)); [lia|]. destruct (Nat.leb_spec (p - 1 - i) (p - 1 - i)); [|lia].
  pose proof (derivable_pt_lim_comp Ropp _ x (-1) _ (derivable_pt_lim_opp id x 1 (derivable_pt_lim_id x)) D2) as D3.
  assert (E : forall y, comp (fun y => rsum (seq 0 (S p)) (fun k => (if (k <=? p - 1 - i)%nat then 0 else 1) * node_fn P k y)) Ropp y =
                        rsum (seq 0 (S p)) (fun k => (if (k <=? i)%nat then 1 else 0) * node_fn P k y)).
  { intros y. unfold comp. rewrite rsum_rev_seq. apply rsum_ext. intros k Hk. apply in_seq in Hk.
    replace (S p - 1 - k)%nat with (p - k)%nat by lia. rewrite N by lia. f_equal.
    destruct (Nat.leb_spec (p - k) (p - 1 - i)), (Nat.leb_spec k i); lia || reflexivity. }
  pose proof (lim_ext' _ _ x _ E D3) as D4.
  pose proof (uniqueness_limite _ _ _ _ D1 D4). lra.
Qed.
Lemma nodes_mirror : mirrored P.
Proof. split; [exact N|exact edge_symmetric]. Qed.
End Basis.
