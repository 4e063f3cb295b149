(** Commutative rings and finite sums, shared by the linear algebra models. Not a model of any
    /repo code: python's floats are replaced by the elements of an arbitrary commutative ring. *)
From Coq Require Import List Arith ZArith Lia Bool Permutation Ring Setoid.
Import ListNotations.

Record CRing := mkCRing {
  car :> Type; r0 : car; r1 : car;
  radd : car -> car -> car; rmul : car -> car -> car; rsub : car -> car -> car; ropp : car -> car;
  Rth : ring_theory r0 r1 radd rmul rsub ropp (@eq car) }.

Arguments r0 {_}. Arguments r1 {_}. Arguments radd {_}. Arguments rmul {_}.
Arguments rsub {_}. Arguments ropp {_}.

Declare Scope ring_s.
Delimit Scope ring_s with R.
Notation "x + y" := (radd x y) : ring_s.
Notation "x * y" := (rmul x y) : ring_s.
Notation "x - y" := (rsub x y) : ring_s.
Notation "- x" := (ropp x) : ring_s.
Notation "0" := r0 : ring_s.
Notation "1" := r1 : ring_s.

Definition ZR : CRing := mkCRing Z 0%Z 1%Z Z.add Z.mul Z.sub Z.opp Zth.

(** [bsum l f] = sum of [f a] for [a] in [l]. *)
Definition bsum {K : CRing} {A} (l : list A) (f : A -> K) : K :=
  fold_right (fun a s => radd (f a) s) r0 l.

Arguments bsum : simpl never.

(** [n * x] *)
Fixpoint nmul {K : CRing} (n : nat) (x : K) : K :=
  match n with O => r0 | S n' => radd x (nmul n' x) end.

Section Sums.
  Variable K : CRing.
  Add Ring Kring : (Rth K).
  Open Scope ring_s.

  Lemma bsum_nil {A} (f : A -> K) : bsum [] f = 0.
  Proof. reflexivity. Qed.
  Lemma bsum_cons {A} a l (f : A -> K) : bsum (a :: l) f = f a + bsum l f.
  Proof. reflexivity. Qed.
  Lemma bsum_app {A} l1 l2 (f : A -> K) : bsum (l1 ++ l2) f = bsum l1 f + bsum l2 f.
  Proof. induction l1; simpl; [rewrite bsum_nil; ring|]. rewrite !bsum_cons, IHl1. ring. Qed.
  Lemma bsum_ext {A} l (f g : A -> K) : (forall a, In a l -> f a = g a) -> bsum l f = bsum l g.
  Proof.
    induction l; simpl; intros H; [reflexivity|]. rewrite !bsum_cons, IHl, H; auto.
  Qed.
  Lemma bsum_0 {A} (l : list A) (f : A -> K) : (forall a, In a l -> f a = 0) -> bsum l f = 0.
  Proof. induction l; simpl; intros H; [reflexivity|]. rewrite bsum_cons, H, IHl; auto. ring. Qed.
  Lemma bsum_plus {A} l (f g : A -> K) : bsum l (fun a => f a + g a) = bsum l f + bsum l g.
  Proof. induction l; simpl; [rewrite !bsum_nil; ring|]. rewrite !bsum_cons, IHl. ring. Qed.
  Lemma bsum_minus {A} l (f g : A -> K) : bsum l (fun a => f a - g a) = bsum l f - bsum l g.
  Proof. induction l; simpl; [rewrite !bsum_nil; ring|]. rewrite !bsum_cons, IHl. ring. Qed.
  Lemma bsum_opp {A} l (f : A -> K) : bsum l (fun a => - f a) = - bsum l f.
  Proof. induction l; simpl; [rewrite !bsum_nil; ring|]. rewrite !bsum_cons, IHl. ring. Qed.
  Lemma bsum_mul_l {A} l (c : K) (f : A -> K) : bsum l (fun a => c * f a) = c * bsum l f.
  Proof. induction l; simpl; [rewrite !bsum_nil; ring|]. rewrite !bsum_cons, IHl. ring. Qed.
  Lemma bsum_mul_r {A} l (c : K) (f : A -> K) : bsum l (fun a => f a * c) = bsum l f * c.
  Proof. induction l; simpl; [rewrite !bsum_nil; ring|]. rewrite !bsum_cons, IHl. ring. Qed.
  Lemma bsum_swap {A B} (l : list A) (m : list B) (f : A -> B -> K) :
    bsum l (fun a => bsum m (fun b => f a b)) = bsum m (fun b => bsum l (fun a => f a b)).
  Proof.
    induction l; simpl.
    - rewrite bsum_nil. symmetry. apply bsum_0. reflexivity.
    - rewrite bsum_cons, IHl, <- bsum_plus. apply bsum_ext. reflexivity.
  Qed.
  Lemma bsum_map {A B} (h : B -> A) l (f : A -> K) : bsum (map h l) f = bsum l (fun b => f (h b)).
  Proof. induction l; simpl; [reflexivity|]. rewrite !bsum_cons, IHl. reflexivity. Qed.
  Lemma bsum_concat {A} (l : list (list A)) (f : A -> K) : bsum (concat l) f = bsum l (fun b => bsum b f).
  Proof. induction l; simpl; [reflexivity|]. rewrite bsum_app, bsum_cons, IHl. reflexivity. Qed.
  Lemma bsum_flat_map {A B} (h : B -> list A) l (f : A -> K) :
    bsum (flat_map h l) f = bsum l (fun b => bsum (h b) f).
  Proof. induction l; simpl; [reflexivity|]. rewrite bsum_app, bsum_cons, IHl. reflexivity. Qed.
  Lemma bsum_perm {A} (l1 l2 : list A) (f : A -> K) : Permutation l1 l2 -> bsum l1 f = bsum l2 f.
  Proof.
    induction 1; simpl; rewrite ?bsum_cons; try congruence. ring.
  Qed.
  Lemma bsum_filter {A} (p : A -> bool) l (f : A -> K) :
    bsum (filter p l) f = bsum l (fun a => if p a then f a else 0).
  Proof.
    induction l; simpl; [reflexivity|]. rewrite bsum_cons, <- IHl.
    destruct (p a); rewrite ?bsum_cons; ring.
  Qed.
  Lemma bsum_const_if {A} (p : A -> bool) l (x : K) :
    bsum l (fun a => if p a then x else 0) = nmul (length (filter p l)) x.
  Proof.
    induction l; simpl; [reflexivity|]. rewrite bsum_cons, IHl. destruct (p a); simpl; ring.
  Qed.
  (** picking one element of a duplicate free list *)
  Lemma bsum_pick {A} (dec : forall x y : A, {x = y} + {x <> y}) l x (f : A -> K) :
    NoDup l -> In x l -> bsum l (fun a => if dec a x then f a else 0) = f x.
  Proof.
    induction l as [|a l IH]; simpl; intros N I; [tauto|]. inversion N; subst. rewrite bsum_cons.
    destruct (dec a x) as [->|D].
    - rewrite bsum_0; [ring|]. intros b Hb. destruct (dec b x); [subst; tauto|reflexivity].
    - destruct I as [E|I]; [tauto|]. rewrite IH by auto. ring.
  Qed.
  Lemma bsum_pick_nat l x (f : nat -> K) :
    NoDup l -> In x l -> bsum l (fun a => if a =? x then f a else 0) = f x.
  Proof.
    intros N I. rewrite <- (bsum_pick Nat.eq_dec l x f N I). apply bsum_ext. intros a _.
    destruct (Nat.eq_dec a x) as [->|D]; [rewrite Nat.eqb_refl; reflexivity|].
    apply Nat.eqb_neq in D. rewrite D. reflexivity.
  Qed.
  Lemma bsum_pick_seq n x (f : nat -> K) :
    x < n -> bsum (seq 0 n) (fun a => if a =? x then f a else 0) = f x.
  Proof. intros H. apply bsum_pick_nat; [apply seq_NoDup|apply in_seq; lia]. Qed.
  Lemma bsum_only {A} (l : list A) x (f : A -> K) :
    NoDup l -> In x l -> (forall a, In a l -> a <> x -> f a = 0) -> bsum l f = f x.
  Proof.
    induction l as [|a l IH]; simpl; intros N I H; [tauto|]. inversion N; subst. rewrite bsum_cons.
    destruct I as [->|I].
    - rewrite bsum_0; [ring|]. intros b Hb. apply H; [auto|]. intros ->. tauto.
    - rewrite IH; auto. rewrite (H a); [ring|auto|]. intros ->. tauto.
  Qed.
  Lemma bsum_seq_S n (f : nat -> K) : bsum (seq 0 (S n)) f = bsum (seq 0 n) f + f n.
  Proof. rewrite seq_S, bsum_app. simpl. rewrite bsum_cons, bsum_nil. ring. Qed.
  Lemma bsum_seq_split a b (f : nat -> K) :
    bsum (seq 0 (a + b)) f = bsum (seq 0 a) f + bsum (seq 0 b) (fun i => f (a + i)%nat).
  Proof.
    rewrite seq_app, bsum_app. f_equal. simpl.
    replace (seq a b) with (map (fun i => a + i)%nat (seq 0 b)).
    - rewrite bsum_map. reflexivity.
    - assert (forall s n, map (fun i => a + i)%nat (seq s n) = seq (a + s) n) as E.
      { intros s n. revert s. induction n; simpl; intros; [reflexivity|].
        f_equal. rewrite IHn. f_equal. lia. }
      rewrite E. f_equal. lia.
  Qed.
  Lemma nmul_mul n (x : K) : nmul n x = nmul n 1 * x.
  Proof. induction n; simpl; [ring|]. rewrite IHn. ring. Qed.
End Sums.
