(* C89, C90: metric types of elements and sides. *)
From Coq Require Import Reals List ZArith QArith Qcanon.
From Verif Require Import TfiModel SpacingModel CtModel CtSpec CtProofs2 CtExample MarkModel MarkSpec MarkProofs
  MarkProofs2 MarkExample.
Import ListNotations.
Open Scope R_scope.

(* ---- C89 ---- *)
(* a cache keyed by marks is right in every order of accesses exactly if equal marks mean equal values *)
Theorem C89_cache : forall V mk (val : nat -> V) elems, NoDup elems ->
  ((forall req, incl req elems -> cache_run V mk val elems [] req = map val req) <-> faithful mk val elems).
Proof. exact cache_iff. Qed.
Print Assumptions C89_cache.
Example C89_cache_ex : cache_run nat (fun i => if Nat.eqb i 2 then mId 7 else mCube 500) (fun i => i * i)%nat
  [0; 1; 2]%nat [] [1; 0; 2]%nat = [1; 1; 4]%nat.
Proof. reflexivity. Qed.

(* lengths that are multiples of 1/1000: the Jacobian matrices from the cache are those of the elements *)
Theorem C89_elements_partial : forall fmt T E M O elems x y z, prints fmt -> NoDup elems ->
  (forall i, In i elems -> region_fits (T i) (M i) /\ orth_lengths (T i) (E i) (all_grid 3)) ->
  forall req, incl req elems ->
    cache_run mat3 (fun i => elem_mark fmt (T i) i (E i)) (fun i => ct_Jacobian_matrix (M i) (O i) (E i) x y z) elems [] req
    = map (fun i => ct_Jacobian_matrix (M i) (O i) (E i) x y z) req.
Proof. exact elements_cached. Qed.
Print Assumptions C89_elements_partial.
Example C89_elements_ex : prints near /\ all_grid 3 (/ 2, / 4, / 8) /\ ~ on_grid 3 (/ 3) /\
  forall fmt, prints fmt -> elem_mark fmt (rOrth (1, 1, 1)) 0 (fst halves) = mYZ 10000 5000.
Proof. exact (conj near_prints (conj (proj1 grid_case) (conj (proj2 grid_case) halves_marks))). Qed.

(* in general equal marks give the lengths up to a thousandth *)
Theorem C89_close : forall fmt, prints fmt ->
  (forall l l', orth_mark fmt l = orth_mark fmt l' -> close (1001 / 1000000) l l') /\
  (forall x y x' y', orth_mark2 fmt (x, y) = orth_mark2 fmt (x', y') ->
     Rabs (x - x') <= 11 / 100000 /\ Rabs (y - y') <= 11 / 100000) /\
  (forall c c' d1 d2 d1' d2', side_mark fmt c d1 d2 = side_mark fmt c' d1' d2' ->
     c = c' /\ Rabs (d1 - d1') <= 11 / 1000000 /\ Rabs (d2 - d2') <= 11 / 1000000).
Proof.
  exact (fun fmt P => conj (fun l l' => orth_close fmt l l' P)
    (conj (fun x y x' y' => orth2_close fmt x y x' y' P)
          (fun c c' d1 d2 d1' d2' => side_close fmt c c' d1 d2 d1' d2' P))).
Qed.
Print Assumptions C89_close.

(* a cube of size 4e-4 with elements of one and three quarters: the larger element gets the Jacobian of the smaller *)
Theorem C89_elements_refuted : exists lay rs ss e e', let l := (micro, micro, micro) in
  parse_layout [Sizes [Q2Qc 1; Q2Qc 3]; Sizes [Q2Qc 1; Q2Qc 3]; Sizes [Q2Qc 1; Q2Qc 3]] = Some (lay, rs, ss) /\
  elem_at rs ss [0%nat; 0%nat; 0%nat] = Some e /\ elem_at rs ss [1%nat; 1%nat; 1%nat] = Some e' /\
  forall fmt, prints fmt ->
    let mk := fun i => elem_mark fmt (rOrth l) i (if Nat.eqb i 0 then e else e') in
    let val := fun i => ct_Jacobian (ct_Jacobian_matrix (box_J l) true (if Nat.eqb i 0 then e else e') 0 0 0) in
    mk 0%nat = mk 1%nat /\ val 1%nat = 27 * val 0%nat /\ 0 < val 0%nat /\
    cache_run R mk val [0%nat; 1%nat] [] [0%nat; 1%nat] = [val 0%nat; val 0%nat].
Proof. exact micro_refutes. Qed.
Print Assumptions C89_elements_refuted.

(* sides of elements of one region *)
Theorem C89_sides_partial : forall fmt l E S elems a b, prints fmt -> NoDup elems ->
  (forall i, In i elems -> on_grid 5 (fst (sizes2 (S i) (e_d (E i)))) /\ on_grid 5 (snd (sizes2 (S i) (e_d (E i))))) ->
  forall req, incl req elems ->
    cache_run mat32 (fun i => trace_mark fmt (rOrth l) i (E i) (S i)) (fun i => side_J l (E i) (S i) a b) elems [] req
    = map (fun i => side_J l (E i) (S i) a b) req.
Proof. exact sides_cached. Qed.
Print Assumptions C89_sides_partial.
Example C89_sides_ex : sizes2 tW (/ 2, / 4, / 8) = (/ 8, / 2).
Proof. reflexivity. Qed.
(* two regions of different sizes: equal marks, areas 1/4 and 1/2 *)
Theorem C89_sides_refuted : exists l l' s, forall fmt a b, prints fmt ->
  trace_mark fmt (rOrth l) 0 whole s = trace_mark fmt (rOrth l') 1 whole s /\
  sqrt (tr_metric (side_J l whole s a b)) = / 4 /\ sqrt (tr_metric (side_J l' whole s a b)) = / 2.
Proof. exact regions_refute. Qed.
Print Assumptions C89_sides_refuted.

(* ---- C90 ---- *)
(* the constant read back from the mark of a side is its area exactly if the region has area one along the side *)
Theorem C90_constant_iff : forall fmt l i e s a b, prints fmt ->
  (forall c, 0 < get l c) -> (forall c, 0 < get (e_d e) c) ->
  on_grid 5 (fst (sizes2 s (e_d e))) -> on_grid 5 (snd (sizes2 s (e_d e))) ->
  (constant_Jacobian (trace_mark fmt (rOrth l) i e s) = Some (sqrt (tr_metric (side_J l e s a b)))
   <-> fst (sizes2 s l) * snd (sizes2 s l) = 1).
Proof. exact constant_iff. Qed.
Print Assumptions C90_constant_iff.
Theorem C90_constant_refuted : forall fmt a b, prints fmt ->
  constant_Jacobian (trace_mark fmt (rOrth (/ 2, / 2, / 2)) 0 whole tN) = Some (/ 4) /\
  sqrt (tr_metric (side_J (/ 2, / 2, / 2) whole tN a b)) = / 16.
Proof. exact cuboid_default. Qed.
Print Assumptions C90_constant_refuted.
Example C90_constant_ex : prints near.
Proof. exact near_prints. Qed.

(* in 2D it is half the length up to 3e-5, so nothing is left of short edges *)
Theorem C90_constant_plane : forall fmt x y, prints fmt ->
  (forall ud j, constant_Jacobian2 (orth_mark2 fmt (x, y)) ud = Some j ->
     Rabs (j - (if ud then y else x) / 2) <= 3 / 100000) /\
  (0 < x <= 4 / 100000 -> 0 < y -> constant_Jacobian2 (orth_mark2 fmt (x, y)) false = Some 0).
Proof.
  exact (fun fmt x y P => conj (fun ud j => constant2_close fmt x y ud j P) (constant2_lost fmt x y P)).
Qed.
Print Assumptions C90_constant_plane.
