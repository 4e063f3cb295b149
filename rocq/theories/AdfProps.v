(* Properties of algebraic dual forms. *)
From Coq Require Import Reals List Arith ZArith Lia Lra.
From Verif Require Import Prelude RingSum SpaceModel SpaceSpec TfiModel TfiSpec CtModel CtSpec DiscModel DiscSpec DiscExample ReconModel ReconSpec ReconExample.
From Verif Require Import TrfModel TrfSpec TrfExample AdfModel AdfSpec AdfProofs AdfProofs2 AdfProofs3 AdfExample.
Import ListNotations.
Open Scope R_scope.

(* ---------- C138: dual cochains ---------- *)
(* setting accepts exactly the dicts with a cochain of the right length for every element *)
Theorem C138_accepts : forall els n M iM, (forall i, In i els -> inverse_of (M i) (iM i) n) -> (0 < n)%nat ->
  forall l, (exists st, dual_set els n iM l = Some st) <-> covers els n l.
Proof. exact dual_set_iff. Qed.
Print Assumptions C138_accepts.
Example C138_accepts_ex : (exists st, dual_set [0; 1]%nat 2 aI aD = Some st) /\ ~ (exists st, dual_set [0; 1]%nat 2 aI [(1%nat, [6; 8]); (0%nat, [5])] = Some st).
Proof.
  split; [apply (dual_set_iff _ _ aM aI ex_inv); [lia|exact ex_covers]|]. intros H. apply (dual_set_iff _ _ aM aI ex_inv) in H; [|lia].
  destruct (proj2 H 0%nat (or_introl eq_refl)) as (c & E & L). cbn in E. injection E as <-. discriminate L.
Qed.
(* what was set is what is read *)
Theorem C138_set_get : forall els n M iM, (forall i, In i els -> inverse_of (M i) (iM i) n) -> (0 < n)%nat ->
  forall l st, dual_set els n iM l = Some st -> dual_keys st = Some els /\ forall i, In i els -> dual_get M st i = lookup Nat.eqb i l.
Proof. exact set_get. Qed.
Print Assumptions C138_set_get.
Example C138_set_get_ex : dual_set [0; 1]%nat 2 aI aD = Some (Some [(0%nat, [2; 1]); (1%nat, [3; 2])]) /\ dual_get aM (Some [(0%nat, [2; 1]); (1%nat, [3; 2])]) 1 = Some [6; 8].
Proof.
  assert (H : dual_set [0; 1]%nat 2 aI aD = Some (Some [(0%nat, [2; 1]); (1%nat, [3; 2])])).
  { unfold dual_set, aD, matvec, lsum. cbn. unfold prime_set. cbn. do 2 apply f_equal. apply f_equal2; [apply f_equal|apply f_equal2; [apply f_equal|reflexivity]]; repeat (apply (f_equal2 cons); [field|]); reflexivity. }
  split; [exact H|]. apply (proj2 (set_get _ _ aM aI ex_inv ltac:(lia) aD _ H)). right. left. reflexivity.
Qed.
(* setting what was read leaves the prime unchanged *)
Theorem C138_get_set : forall els n M iM, (forall i, In i els -> inverse_of (M i) (iM i) n) ->
  forall d, NoDup els -> covers els n d -> exists l, map fst l = els /\ (forall i, In i els -> dual_get M (Some d) i = lookup Nat.eqb i l) /\
  exists d', dual_set els n iM l = Some (Some d') /\ forall i, In i els -> lookup Nat.eqb i d' = lookup Nat.eqb i d.
Proof. exact get_set. Qed.
Print Assumptions C138_get_set.
Example C138_get_set_ex : exists l, map fst l = [0; 1]%nat /\ (forall i, In i [0; 1]%nat -> dual_get aM (Some aD) i = lookup Nat.eqb i l) /\
  exists d', dual_set [0; 1]%nat 2 aI l = Some (Some d') /\ forall i, In i [0; 1]%nat -> lookup Nat.eqb i d' = lookup Nat.eqb i aD.
Proof. apply (get_set [0; 1]%nat 2 aM aI ex_inv); [repeat constructor; cbn; intuition discriminate|exact ex_covers]. Qed.
(* setting a locally full vector gives every element its entries *)
Theorem C138_full : forall els n M iM, (forall i, In i els -> inverse_of (M i) (iM i) n) -> (0 < n)%nat ->
  forall gm v, map fst gm = els -> NoDup els -> (forall e, In e gm -> length (snd e) = n /\ Forall (fun k => (k < length v)%nat) (snd e)) ->
  exists st, dual_set_full els n iM gm v = Some st /\ forall i idx, In (i, idx) gm -> dual_get M st i = Some (map (fun k => nth k v 0) idx).
Proof. exact set_full_ok. Qed.
Print Assumptions C138_full.
Example C138_full_ex : exists st, dual_set_full [0; 1]%nat 2 aI [(0%nat, [0; 1]%nat); (1%nat, [1; 2]%nat)] [5; 7; 9] = Some st /\ dual_get aM st 1 = Some [7; 9].
Proof.
  destruct (set_full_ok [0; 1]%nat 2 aM aI ex_inv ltac:(lia) [(0%nat, [0; 1]%nat); (1%nat, [1; 2]%nat)] [5; 7; 9] eq_refl) as (st & H & G).
  - repeat constructor; cbn; intuition discriminate.
  - intros e [<-|[<-|[]]]; split; try reflexivity; repeat constructor; cbn; lia.
  - exists st. split; [exact H|]. apply (G 1%nat [1; 2]%nat). right. left. reflexivity.
Qed.
(* a distributed vector is accepted by no dual trace form *)
Theorem C138_distributed_refuted : ~ (forall els n M iM gm shape, (forall i, In i els -> inverse_of (M i) (iM i) n) -> map fst gm = els -> NoDup els ->
  (forall e, In e gm -> length (snd e) = n /\ Forall (fun k => (k < shape)%nat) (snd e)) -> exists st, trace_set_globe els n iM gm (Distributed shape) = Some st).
Proof.
  intros H. destruct (H [0; 1]%nat 2%nat aM aI [(0%nat, [0; 1]%nat); (1%nat, [1; 2]%nat)] 3%nat ex_inv eq_refl) as (st & E); [| |discriminate E].
  - repeat constructor; cbn; intuition discriminate.
  - intros e [<-|[<-|[]]]; split; try reflexivity; repeat constructor; cbn; lia.
Qed.
Print Assumptions C138_distributed_refuted.

(* ---------- C139: the dual coboundary ---------- *)
(* a dual 1-, 2- or 3-form is accepted with the dual trace form of one degree less, when all cochains have the right length *)
Theorem C139_accepts : forall px py pz, Forall (fun n => (1 <= n)%nat) [px; py; pz] -> forall els k j DFC DTC,
  (exists l, dual_coboundary els [px; py; pz] k j DFC DTC = Some l) <->
  ((1 <= k <= 3)%nat /\ j = (k - 1)%nat /\ forall i, In i els -> fits k [px; py; pz] DFC DTC i).
Proof. exact coboundary_iff. Qed.
Print Assumptions C139_accepts.
Example C139_accepts_ex : (exists l, dual_coboundary [7]%nat [1; 1; 1]%nat 3 2 (fun _ => Some [5]) (fun _ => Some [1; 2; 3; 4; 5; 6]) = Some l) /\
  ~ (exists l, dual_coboundary [7]%nat [1; 1; 1]%nat 3 1 (fun _ => Some [5]) (fun _ => Some [1; 2; 3; 4; 5; 6]) = Some l).
Proof.
  split; [eexists; exact ex_step|]. intros H. apply coboundary_iff in H; [|repeat constructor]. destruct H as (_ & H & _). discriminate H.
Qed.
(* it is the adjoint of the derivative, with the boundary term of integration by parts *)
Theorem C139_weak : forall px py pz, Forall (fun n => (1 <= n)%nat) [px; py; pz] -> forall els k j DFC DTC l,
  dual_coboundary els [px; py; pz] k j DFC DTC = Some l -> map fst l = els /\
  forall i r, In (i, r) l -> exists d t, DFC i = Some d /\ DTC i = Some t /\ weak_d k [px; py; pz] d t r.
Proof. exact coboundary_ok. Qed.
Print Assumptions C139_weak.
Example C139_weak_ex : weak_d 3 [1; 1; 1]%nat [5] [1; 2; 3; 4; 5; 6] [4; -3; 2; -1; 0; 1].
Proof.
  destruct (coboundary_ok 1 1 1 ltac:(repeat constructor) _ _ _ _ _ _ ex_step) as (_ & H). destruct (H 7%nat _ (or_introl eq_refl)) as (d & t & Hd & Ht & W).
  injection Hd as <-. injection Ht as <-. exact W.
Qed.
(* that determines it *)
Theorem C139_unique : forall px py pz k d t r r', (1 <= k <= 3)%nat ->
  weak_d k [px; py; pz] d t r -> weak_d k [px; py; pz] d t r' -> r = r'.
Proof. exact weak_unique. Qed.
Print Assumptions C139_unique.
Example C139_unique_ex : forall r, weak_d 3 [1; 1; 1]%nat [5] [1; 2; 3; 4; 5; 6] r -> r = [4; -3; 2; -1; 0; 1].
Proof. intros r H. exact (weak_unique 1 1 1 3 _ _ _ _ ltac:(lia) H C139_weak_ex). Qed.
(* for the constant one it vanishes *)
Theorem C139_ones : forall px py pz, Forall (fun n => (1 <= n)%nat) [px; py; pz] -> forall r,
  weak_d 3 [px; py; pz] (repeat 1 (length (form_cells 3 [px; py; pz]))) (repeat 1 (length (trace_cells 2 [px; py; pz]))) r ->
  r = repeat 0 (length (form_cells 2 [px; py; pz])).
Proof. exact weak_ones. Qed.
Print Assumptions C139_ones.
Example C139_ones_ex : dual_coboundary [7]%nat [1; 1; 1]%nat 3 2 (fun _ => Some [1]) (fun _ => Some [1; 1; 1; 1; 1; 1]) = Some [(7%nat, repeat 0 6)].
Proof.
  destruct (proj2 (coboundary_iff 1 1 1 ltac:(repeat constructor) [7]%nat 3 2 (fun _ => Some [1]) (fun _ => Some [1; 1; 1; 1; 1; 1]))) as (l & H).
  - split; [lia|]. split; [reflexivity|]. intros i _. eexists _, _. repeat split.
  - destruct (coboundary_ok 1 1 1 ltac:(repeat constructor) _ _ _ _ _ _ H) as (K & W). destruct l as [|(i, r) [|]]; try discriminate K. injection K as ->.
    destruct (W 7%nat r (or_introl eq_refl)) as (d & t & Hd & Ht & Q). injection Hd as <-. injection Ht as <-. rewrite H, (weak_ones 1 1 1 ltac:(repeat constructor) r Q). reflexivity.
Qed.
(* the sum of the dual divergence is the sum over the sides, with outward signs *)
Theorem C139_sum : forall px py pz d ts r, let p := [px; py; pz] in weak_d 1 p d (flat_map ts all_sides) r ->
  (forall s, length (ts s) = length (side_cells p nodes3 s)) -> lsum r = outward_sum (fun s => lsum (ts s)).
Proof. exact weak_sum. Qed.
Print Assumptions C139_sum.
Example C139_sum_ex : forall r, weak_d 1 [1; 1; 1]%nat (repeat 3 12) (flat_map (fun s => match s with tS => [1; 2; 3; 4] | _ => [0; 0; 0; 0] end) all_sides) r -> lsum r = 10.
Proof.
  intros r H. rewrite (weak_sum 1 1 1 _ _ r H) by (intros []; reflexivity). unfold outward_sum, rsum, lsum, end_pt. cbn. ring.
Qed.
(* applied twice it depends on the trace cochains only *)
Theorem C139_twice : forall px py pz k d d1 t r r1 t' r' r1', (2 <= k <= 3)%nat ->
  weak_d k [px; py; pz] d t r -> weak_d k [px; py; pz] d1 t r1 ->
  weak_d (k - 1) [px; py; pz] r t' r' -> weak_d (k - 1) [px; py; pz] r1 t' r1' -> r' = r1'.
Proof. exact weak_twice_same. Qed.
Print Assumptions C139_twice.
Example C139_twice_ex : forall d r r', length d = 1%nat -> weak_d 3 [1; 1; 1]%nat d (repeat 0 6) r -> weak_d 2 [1; 1; 1]%nat r (repeat 0 24) r' ->
  weak_d 2 [1; 1; 1]%nat (repeat 0 6) (repeat 0 24) r'.
Proof.
  intros d r r' L W W'. assert (Z : forall k n m l, n = length (form_cells (k - 1) [1; 1; 1]%nat) -> weak_d k [1; 1; 1]%nat (repeat 0 m) (repeat 0 l) (repeat 0 n)).
  { assert (Q : forall v n, pairing v (repeat 0 n) = 0).
    { intros v n. unfold pairing. revert n. induction v as [|x v IH]; intros [|n]; try reflexivity. cbn [repeat combine]. rewrite DiscProofs2.rsum_cons, IH. cbn [fst snd]. ring. }
    intros k n m l ->. split; [apply repeat_length|]. intros v u y _ _ _. rewrite !Q. ring. }
  rewrite (weak_twice_same 1 1 1 3 d (repeat 0 1) (repeat 0 6) r (repeat 0 6) (repeat 0 24) r' (repeat 0 12) ltac:(lia) W (Z 3%nat 6%nat 1%nat 6%nat eq_refl) W' (Z 2%nat 12%nat 6%nat 24%nat eq_refl)).
  apply Z. reflexivity.
Qed.

(* ---------- C140: the primes ---------- *)
(* the primes of the dual forms are related through the mass matrices *)
Theorem C140_primes : forall px py pz els k j M MT M' iM' st stT l st' n, Forall (fun n => (1 <= n)%nat) [px; py; pz] -> NoDup els -> let p := [px; py; pz] in
  n = length (form_cells (k - 1) p) ->
  (forall i, In i els -> inverse_of (M' i) (iM' i) n) ->
  (forall i, In i els -> has_shape (M i) (length (form_cells k p)) (length (form_cells k p))) ->
  (forall i, In i els -> has_shape (MT i) (length (trace_cells (k - 1) p)) (length (trace_cells (k - 1) p))) ->
  dual_coboundary els p k j (dual_get M (Some st)) (dual_get MT (Some stT)) = Some l -> dual_set els n iM' l = Some (Some st') ->
  forall i, In i els -> exists c t u, lookup Nat.eqb i st = Some c /\ lookup Nat.eqb i stT = Some t /\ lookup Nat.eqb i st' = Some u /\
    weak_d k p (times (M i) c) (times (MT i) t) (times (M' i) u).
Proof. exact primes_ok. Qed.
Print Assumptions C140_primes.
(* 2-forms with twice the identity, 3-forms with 5, traces with the identity *)
Example C140_primes_ex : exists u, dual_set [7]%nat 6 (fun _ => idm 6 (1 / 2)) [(7%nat, [4; -3; 2; -1; 0; 1])] = Some (Some [(7%nat, u)]) /\
  weak_d 3 [1; 1; 1]%nat (times [[5]] [1]) (times (idm 6 1) [1; 2; 3; 4; 5; 6]) (times (idm 6 2) u).
Proof.
  destruct (proj2 (dual_set_iff [7]%nat 6 (fun _ => idm 6 2) (fun _ => idm 6 (1 / 2)) (fun _ _ => idm_inv) ltac:(lia) [(7%nat, [4; -3; 2; -1; 0; 1])])) as (st & H).
  { split; [reflexivity|]. intros i [<-|[]]. eexists. split; reflexivity. }
  destruct st as [st'|]. 2:{ unfold dual_set in H. cbn [length Nat.eqb] in H. match type of H with match ?x with _ => _ end = _ => destruct x end; [unfold prime_set in H; match type of H with (if ?x then _ else _) = _ => destruct x end|]; discriminate. }
  pose proof (primes_ok 1 1 1 [7]%nat 3 2 (fun _ => [[5]]) (fun _ => idm 6 1) (fun _ => idm 6 2) (fun _ => idm 6 (1 / 2)) [(7%nat, [1])] [(7%nat, [1; 2; 3; 4; 5; 6])] [(7%nat, [4; -3; 2; -1; 0; 1])] st' 6
    ltac:(repeat constructor) ltac:(repeat constructor; intros []) eq_refl (fun _ _ => idm_inv)) as P.
  cbv zeta in P. specialize (P (fun _ _ => one_shape) (fun _ _ => idm_shape) ex_primes H 7%nat (or_introl eq_refl)).
  destruct P as (c & t & u & Hc & Ht & Hu & W). injection Hc as <-. injection Ht as <-. exists u. split; [|exact W]. rewrite H. do 2 apply f_equal.
  destruct (set_get [7]%nat 6 _ _ (fun _ _ => idm_inv) ltac:(lia) _ _ H) as (K & _). cbn in K. injection K as K. destruct st' as [|(i, u') [|]]; try discriminate K. injection K as ->. cbn in Hu. injection Hu as ->. reflexivity.
Qed.
(* dual 3-forms: with the mass matrices, the weak gradient *)
Theorem C140_gradient : forall g sp q qt J same orth, basis3_of g sp -> ends_ok g (pdeg (s0 sp)) (pdeg (s1 sp)) (pdeg (s2 sp)) -> rules_ok q -> rules_ok qt ->
  on_grid (qmesh q) (fun x y z => det3 (J x y z) <> 0) -> (orth = true -> on_grid (qmesh q) (fun x y z => diagonal (J x y z))) ->
  (forall s, on_grid (side_mesh s (qmesh qt)) (fun x y z => area_vec (J x y z) s <> zero_vec)) ->
  forall c3 ct u2 ts (P : R -> R -> R -> R) (U : R -> R -> R -> vec) (T : tside -> R -> R -> R -> R),
  weak_d 3 (degrees sp) (times (inner3 sp sp q J) c3) (times (mass6 D2 sp qt J) ct) (times (inner2 same orth sp sp q J) u2) -> side_pieces D2 sp ct ts ->
  on_grid (qmesh q) (fun x y z => pulls3 (J x y z) (P x y z) (hat3 sp c3 x y z)) ->
  on_grid (qmesh q) (fun x y z => pulls2 (J x y z) (U x y z) (fun d => hat2 sp u2 d x y z)) ->
  (forall s, on_grid (side_mesh s (qmesh qt)) (fun x y z => T s x y z * norm (area_vec (J x y z) s) = side_hat D2 sp s (ts s) x y z)) ->
  forall v w (V : R -> R -> R -> vec) (W : R -> R -> R -> R), length v = length (form_cells 2 (degrees sp)) -> is_d 2 (degrees sp) v w ->
  on_grid (qmesh q) (fun x y z => pulls2 (J x y z) (V x y z) (fun d => hat2 sp v d x y z)) ->
  (forall s, on_grid (side_mesh s (qmesh qt)) (fun x y z => pulls2 (J x y z) (V x y z) (fun d => hat2 sp v d x y z))) ->
  on_grid (qmesh q) (fun x y z => pulls3 (J x y z) (W x y z) (hat3 sp w x y z)) ->
  quad3 q (fun x y z => det3 (J x y z) * dot (V x y z) (U x y z)) =
  - quad3 q (fun x y z => det3 (J x y z) * (W x y z * P x y z)) +
  outward_sum (fun s => quad3 (side_rule s qt) (fun x y z => norm (area_vec (J x y z) s) * (component (area_vec (J x y z) s) (V x y z) * T s x y z))).
Proof. exact weak_grad. Qed.
Print Assumptions C140_gradient.
(* P = 1, T = 1: the divergence theorem *)
Example C140_gradient_ex : forall v w, length v = 11%nat -> is_d 2 [2; 1; 1]%nat v w ->
  quad3 exq (fun x y z => det3 (idJ x y z) * dot (idV2 v x y z) (0, 0, 0)) = - quad3 exq (fun x y z => det3 (idJ x y z) * (hat3 sp w x y z * 1)) +
  outward_sum (fun s => quad3 (side_rule s exq) (fun x y z => norm (area_vec (idJ x y z) s) * (component (area_vec (idJ x y z) s) (idV2 v x y z) * 1))).
Proof.
  intros v w L D. apply (weak_grad exg sp exq exq idJ true false ex_basis ex_ends ex_rules_ok ex_rules_ok (id_det exq) ltac:(discriminate) (fun s x y z _ _ _ => id_nonzero s x y z)
    [4; 4] ex_ct (repeat 0 11) ex_ts (fun _ _ _ => 1) (fun _ _ _ => (0, 0, 0)) (fun _ _ _ _ => 1) ex_weak3 ex_pieces) with (v := v) (w := w); try assumption.
  - intros x y z _ _ _. unfold pulls3, det3, idJ, hat3, expand, rsum. cbn. field.
  - intros x y z _ _ _ []; unfold dot, csum, cross, col, ent, mrow, idJ, hat2, expand, rsum; cbn; field.
  - intros s x y z _ _ _. rewrite id_area. destruct s; unfold side_hat, rsum; cbn; field.
  - intros x y z _ _ _. apply id_pulls2.
  - intros s x y z _ _ _. apply id_pulls2.
  - intros x y z _ _ _. unfold pulls3, det3, idJ. ring.
Qed.
(* dual 1-forms: the weak divergence *)
Theorem C140_divergence : forall g sp q qt J same orth, basis3_of g sp -> ends_ok g (pdeg (s0 sp)) (pdeg (s1 sp)) (pdeg (s2 sp)) -> rules_ok q -> rules_ok qt ->
  on_grid (qmesh q) (fun x y z => det3 (J x y z) <> 0) -> (orth = true -> on_grid (qmesh q) (fun x y z => diagonal (J x y z))) ->
  forall c1 ct u0 ts (P : R -> R -> R -> vec),
  weak_d 1 (degrees sp) (times (inner1 same orth sp sp q J) c1) (times (mass6 D0 sp qt J) ct) (times (inner0 sp sp q J) u0) -> side_pieces D0 sp ct ts ->
  on_grid (qmesh q) (fun x y z => pulls1 (J x y z) (P x y z) (fun d => hat1 sp c1 d x y z)) ->
  forall v w (W : R -> R -> R -> vec), length v = length (form_cells 0 (degrees sp)) -> is_d 0 (degrees sp) v w ->
  on_grid (qmesh q) (fun x y z => pulls1 (J x y z) (W x y z) (fun d => hat1 sp w d x y z)) ->
  quad3 q (fun x y z => det3 (J x y z) * (hat0 sp v x y z * hat0 sp u0 x y z)) =
  - quad3 q (fun x y z => det3 (J x y z) * dot (W x y z) (P x y z)) +
  outward_sum (fun s => quad3 (side_rule s qt) (fun x y z => norm (area_vec (J x y z) s) * (hat0 sp v x y z * side_hat D0 sp s (ts s) x y z))).
Proof. exact weak_div. Qed.
Print Assumptions C140_divergence.
(* P = (1, 0, 0), T its component across the sides *)
Example C140_divergence_ex : forall v w, length v = 8%nat -> is_d 0 [1; 1; 1]%nat v w ->
  quad3 exq (fun x y z => det3 (idJ x y z) * (hat0 sp1 v x y z * hat0 sp1 (repeat 0 8) x y z)) =
  - quad3 exq (fun x y z => det3 (idJ x y z) * dot (as_vec (fun d => hat1 sp1 w d x y z)) (1, 0, 0)) +
  outward_sum (fun s => quad3 (side_rule s exq) (fun x y z => norm (area_vec (idJ x y z) s) * (hat0 sp1 v x y z * side_hat D0 sp1 s (ex_ts0 s) x y z))).
Proof.
  intros v w L D. apply (weak_div g1 sp1 exq exq idJ true false ex_basis1 ex_ends1 ex_rules_ok ex_rules_ok (id_det exq) ltac:(discriminate)
    ex_c1 ex_ct0 (repeat 0 8) ex_ts0 (fun _ _ _ => (1, 0, 0)) ex_weak1 ex_pieces0) with (w := w); try assumption.
  - intros x y z _ _ _ []; unfold dot, csum, col, ent, mrow, idJ, hat1, expand, ex_c1, rsum; cbn; field.
  - intros x y z _ _ _. apply id_pulls1.
Qed.
(* the mass matrix of a trace element is the same from either of its elements *)
Theorem C140_shared : forall F F' J J' s, meets s F F' -> jacobian_of F J -> jacobian_of F' J' ->
  forall k sp q, trf_mass k sp q J s = trf_mass k sp q J' (opposite s).
Proof. exact mass_shared. Qed.
Print Assumptions C140_shared.
Example C140_shared_ex : forall k, trf_mass k sp exq tJ tS = trf_mass k sp exq tJ' tN.
Proof. intros k. exact (mass_shared hF hF' tJ tJ' tS ex_meets ex_tJ ex_tJ' k sp exq). Qed.
(* the mass matrices of dual trace forms have those of the six sides of their elements *)
Theorem C140_sides : forall MAP mk TEW F J k sp q ce cs,
  (forall e, jacobian_of (F e) (J e)) ->
  (forall e ts, In (e, ts) MAP -> exists t, ts = map t all_sides /\ forall s, seen_from F e s (ce (t s)) (cs (t s)) /\
    TEW (t s) = Some (trf_mass k sp q (J (ce (t s))) (cs (t s)))) ->
  (forall e e' m, mk e = MStr m -> mk e' = MStr m -> forall x y z, J e x y z = J e' x y z) ->
  mew_mass MAP mk TEW = Some (map (fun e => (fst e, mass6 k sp q (J (fst e)))) MAP).
Proof. exact mew_geom. Qed.
Print Assumptions C140_sides.
(* the two elements of TrfExample: trace elements 0, .., 5 of the first, 1 and 6, .., 10 of the second *)
Example C140_sides_ex : forall k, mew_mass ex_MAP (fun e => MStr e) (ex_TEW k) = Some [(0%nat, mass6 k sp exq tJ); (1%nat, mass6 k sp exq tJ')].
Proof.
  intros k. apply (mew_geom ex_MAP (fun e => MStr e) (ex_TEW k) ex_Fe ex_Je k sp exq ex_ce ex_cs).
  - intros [|e]; [exact ex_tJ|exact ex_tJ'].
  - intros e ts [E|[E|[]]]; injection E as <- <-; [exists ex_t0|exists ex_t1]; (split; [reflexivity|]); intros []; (split; [|reflexivity]); try (left; split; reflexivity).
    right. split; [reflexivity|]. exact ex_meets'.
  - intros e e' m A B. injection A as ->. injection B as ->. reflexivity.
Qed.
