(** Proofs about RunnerModel: the statements of the properties. *)
From Coq Require Import String Ascii List Arith Bool Lia.
From Verif Require Import AssembleModel RunnerModel RunnerSpec RunnerProofs RunnerProofs2 RunnerProofs3 RunnerProofs4 RunnerProofs5 RunnerProofs6 RunnerProofs7 RunnerProofs8.
Import ListNotations.
Local Open Scope nat_scope.
Local Open Scope list_scope.

Section Final.
Variable V : Type.
Variable veqb : V -> V -> bool.
Variables fmt_in fmt_out : V -> text.
Variable parse : text -> option V.
Lemma crashes : (forall x y, veqb x y = true <-> x = y) -> forall cf solver i0 i1 i2 l,
  legal cf -> solver_ok V fmt_out parse (length (outs cf)) solver -> inputs_ok V i0 i1 = true -> Forall (in3_ok V fmt_in parse) (somes (cells V i0 i1 i2)) ->
  l <> [] -> Forall (fun s => clock_ok (fst s)) l ->
  exists f, sessions V veqb fmt_in fmt_out parse cf solver i0 i1 i2 None [] l = Some (Some f, once (eqb3 V veqb) (somes (firstn (fold_right Nat.max 0 (map snd l)) (cells V i0 i1 i2)))) /\
    holds V fmt_in fmt_out cf solver f (once (eqb3 V veqb) (somes (firstn (fold_right Nat.max 0 (map snd l)) (cells V i0 i1 i2)))).
Proof.
  intros E cf solver i0 i1 i2 l L S I F N C. destruct (sessions_known V veqb E fmt_in fmt_out parse cf L solver S i0 i1 i2 I F l None 0 C eq_refl) as (fs & X & St & Y). specialize (Y N). destruct fs as [f|]; [|easy]. exists f. split; [exact X|exact St].
Qed.
Lemma crashes_complete : (forall x y, veqb x y = true <-> x = y) -> forall cf solver i0 i1 i2 l clock,
  legal cf -> solver_ok V fmt_out parse (length (outs cf)) solver -> inputs_ok V i0 i1 = true -> Forall (in3_ok V fmt_in parse) (somes (cells V i0 i1 i2)) ->
  Forall (fun s => clock_ok (fst s)) (l ++ [clock]) -> length (cells V i0 i1 i2) <= snd clock ->
  exists f, sessions V veqb fmt_in fmt_out parse cf solver i0 i1 i2 None [] (l ++ [clock]) = Some (Some f, once (eqb3 V veqb) (somes (cells V i0 i1 i2))) /\
    holds V fmt_in fmt_out cf solver f (once (eqb3 V veqb) (somes (cells V i0 i1 i2))).
Proof.
  intros E cf solver i0 i1 i2 l clock L S I F C N. destruct (crashes E cf solver i0 i1 i2 (l ++ [clock]) L S I F) as (f & X & Y); [destruct l; discriminate|exact C|].
  assert (G : length (cells V i0 i1 i2) <= fold_right Nat.max 0 (map snd (l ++ [clock]))); [|rewrite (firstn_all2 _ G) in X, Y; exists f; auto].
  rewrite map_app, fold_right_app. cbn [map fold_right]. assert (M : forall m k, k <= fold_right Nat.max k m) by (induction m as [|x m IH]; intros k; [reflexivity|cbn [fold_right]; specialize (IH k); lia]). specialize (M (map snd l) (Nat.max (snd clock) 0)). lia.
Qed.
Lemma once_spec : (forall x y, veqb x y = true <-> x = y) -> forall l, NoDup (once (eqb3 V veqb) l) /\ forall x, In x (once (eqb3 V veqb) l) <-> In x l.
Proof. intros E l. split; [exact (once_NoDup V veqb E l)|]. intros x. exact (once_In V veqb E x l). Qed.
Lemma results_ok : forall cf solver clock i0 i1 i2 f xs n,
  legal cf -> solver_ok V fmt_out parse (length (outs cf)) solver -> inputs_ok V i0 i1 = true -> Forall (in3_ok V fmt_in parse) (somes (cells V i0 i1 i2)) ->
  clock_ok clock -> Forall (in3_ok V fmt_in parse) xs -> holds V fmt_in fmt_out cf solver f xs ->
  exists st, iterate V veqb fmt_in fmt_out parse cf solver clock [] (Some f) i0 i1 i2 n = Some st /\ rows_of V solver (xs ++ calls V st) (rdf V st) /\
    forall f', out V st = Some f' -> holds V fmt_in fmt_out cf solver f' (xs ++ calls V st).
Proof.
  intros cf solver clock i0 i1 i2 f xs n L S I F C Fx H. destruct (iterate_known V veqb fmt_in fmt_out parse cf L solver S i0 i1 i2 I F clock (Some f) xs n C H Fx) as (st & new & X & (_ & R & O & _) & Cc & _).
  exists st. rewrite Cc. split; [exact X|]. split; [exact R|]. intros f' Hf. rewrite O in Hf. injection Hf as <-. exists (rdf V st). auto.
Qed.
Lemma read_file_names cf rows : legal cf -> Forall clean (ins cf) -> Forall clean (outs cf) -> 2 <= length (outs cf) -> Forall (row_ok V fmt_in fmt_out parse (length (outs cf))) rows ->
  read_file V parse (header cf ++ concat (map (row_text V fmt_in fmt_out) rows)) = Some (ins cf, outs cf, rows).
Proof.
  intros L CI CO N R. rewrite (read_file_ok cf L CI CO ltac:(intros X; rewrite X in N; cbn in N; lia) V fmt_in fmt_out parse rows R). destruct (outs cf) as [|a [|b o]]; [reflexivity|cbn in N; lia|reflexivity].
Qed.
Lemma read_file_one cf rows d : legal cf -> Forall clean (ins cf) -> clean d -> outs cf = [d] -> Forall (row_ok V fmt_in fmt_out parse 1) rows ->
  read_file V parse (header cf ++ concat (map (row_text V fmt_in fmt_out) rows)) = Some (ins cf, [d ++ lit ","], rows).
Proof.
  intros L CI CO E R. assert (X := read_file_ok cf L CI ltac:(rewrite E; constructor; [exact CO|constructor]) ltac:(rewrite E; discriminate) V fmt_in fmt_out parse rows). rewrite E in X. exact (X R).
Qed.
End Final.
