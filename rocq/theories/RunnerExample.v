(** A runner with natural numbers, for the examples. *)
From Coq Require Import String Ascii List Arith Bool.
From Verif Require Import RunnerModel RunnerSpec RunnerProofs RunnerProofs3.
Import ListNotations.
Local Open Scope nat_scope.
Local Open Scope list_scope.

Definition ex_cf : conf := mkConf (lit "None") (lit "[2022-01-01 12:00:00]") (lit "/home/run.py") (lit "/home/solver.py") (lit "def solver(a, b, c):" ++ [nl] ++ lit "    return a + 5*b - c, a + b" ++ [nl])
  [lit "a"; lit "b"; lit "c"] (lit "standard") [lit "d"; lit "e"] (lit "{}") (lit "None").
Definition ex_solver (a b c : nat) : list nat := [a + 5 * b + c; a + b].
Definition ex_clock (n : nat) : text * text * text := (lit "[00:00:01]", lit "[00:00:02]", lit "[00:00:03]").
Definition ex_i0 : list (list (option nat)) := [[Some 1; Some 2; Some 3]; [Some 1; None]].
Definition ex_i1 : list (list nat) := [[1; 1; 1]; [1; 7]].
Definition ex_i2 : list nat := [0; 5].
Definition ex_all : list (nat * nat * nat) := [(1, 1, 0); (2, 1, 0); (3, 1, 0); (1, 1, 5); (2, 1, 5); (3, 1, 5)].
Definition ex_run (fs : option text) (n : nat) := iterate nat Nat.eqb dec dec undec ex_cf ex_solver ex_clock [] fs ex_i0 ex_i1 ex_i2 n.
Definition ex_sessions (ns : list nat) := sessions nat Nat.eqb dec dec undec ex_cf ex_solver ex_i0 ex_i1 ex_i2 None [] (map (pair ex_clock) ns).
Lemma ex_in v : in_ok nat dec undec v.
Proof. split; [apply dec_word|]. split; [apply dec_bar|apply undec_dec]. Qed.
Lemma ex_legal : legal ex_cf.
Proof.
  assert (S : forall t, existsb (Ascii.eqb nl) t = false -> single t).
  { intros t E H. assert (X : existsb (Ascii.eqb nl) t = true) by (apply existsb_exists; exists nl; split; [exact H|reflexivity]). congruence. }
  repeat split; try (repeat constructor; apply S; reflexivity); repeat constructor.
Qed.
Lemma ex_solver_ok : solver_ok nat dec undec 2 ex_solver.
Proof. intros a b c. split; [reflexivity|]. apply Forall_forall. intros v _. apply ex_in. Qed.
Lemma ex_clock_ok : clock_ok ex_clock.
Proof. intros n. repeat split; try discriminate; repeat constructor. Qed.
