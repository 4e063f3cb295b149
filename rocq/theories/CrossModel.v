(* Inner products with cross products, for one element of a 3D structured mesh:
   objects/CSCG/_3d/forms/standard/_1s/special/helpers/cross_product_1__ip_1.py,
   cross_product_2__ip_2.py, curl1_cross_product_1__ip_2.py and _2s/special/
   helpers/cross_product_1__ip_2.py, cross_product_2__ip_1.py,
   cross_product_2__ip_2.py, cross_product_2__ip_2_2M0.py,
   inner_curl_cross_2f2f.py.  Over the reals; rounding is not modelled.  3d
   arrays are lists of lists of lists.  The rules are arguments (quad_degree);
   caches by metric type are those of C89. *)
From Coq Require Import Reals List ZArith.
From Verif Require Import TfiModel CtModel DiscModel ReconModel.
Import ListNotations.
Open Scope R_scope.

(* standard forms of degree 1 and 2 *)
Inductive kind := k1 | k2.
(* do.make_reconstruction_matrix_on_grid of an element *)
Definition rm (k : kind) (s : Space3) (m : Mesh3) (J : ejac) (orth : bool) : list (list R) * list (list R) * list (list R) :=
  match k with k1 => rm_1 s m J orth | k2 => rm_2 s m J orth end.
(* num.basis *)
Definition nbasis (k : kind) (s : Space3) : nat :=
  match (match k with k1 => nums1 s | k2 => nums2 s end) with (a, b, c) => (a + b + c)%nat end.

Definition arr3 := list (list (list R)).
Definition tab3 (ni nj nk : nat) (f : nat -> nat -> nat -> R) : arr3 :=
  map (fun i => map (fun j => map (f i j) (seq 0 nk)) (seq 0 nj)) (seq 0 ni).
Definition get3 (M : arr3) (i j k : nat) : R := nth k (nth j (nth i M []) []) 0.
(* + and - of arrays *)
Definition plus3 : arr3 -> arr3 -> arr3 := map2 (map2 (map2 Rplus)).
Definition minus3 : arr3 -> arr3 -> arr3 := map2 (map2 (map2 Rminus)).
(* np.einsum('li, lj, lk, l -> ijk', A, B, C, w) *)
Definition einsum4 (A B C : list (list R)) (w : list R) (ni nj nk : nat) : arr3 :=
  tab3 ni nj nk (fun i j k =>
    lsum (map2 (fun r x => match r with (a, b, c) => nth i a 0 * nth j b 0 * nth k c 0 * x end)
               (combine (combine A B) C) w)).

(* np.meshgrid(.., indexing='ij') of the nodes, ravel(): the last index runs
   first *)
Definition pointsC (m : Mesh3) : list (R * R * R) :=
  flat_map (fun x => flat_map (fun y => map (fun z => (x, y, z)) (mz m)) (my m)) (mx m).
Definition detJC (q : Rule3) (J : ejac) : list R := map (fun x => ct_Jacobian (at_pt J x)) (pointsC (qmesh q)).

(* the array of one element, e.g. cross_product_1__ip_1.py 81-99: Aa + Bb + Cc *)
Definition cp3 (kw ku ke : kind) (sw su se : Space3) (q : Rule3) (J : ejac) (orth : bool) (dJ : list R) : arr3 :=
  match rm kw sw (qmesh q) J orth, rm ku su (qmesh q) J orth, rm ke se (qmesh q) J orth with
  | (wx, wy, wz), (u, v, w), (a, b, c) =>
      let es A B C := einsum4 A B C (map2 Rmult (qw q) dJ) (nbasis kw sw) (nbasis ku su) (nbasis ke se) in
      let Aa := minus3 (es wy w a) (es wz v a) in
      let Bb := minus3 (es wz u b) (es wx w b) in
      let Cc := minus3 (es wx v c) (es wy u c) in
      plus3 (plus3 Aa Bb) Cc
  end.
(* cross_product_1__ip_1.py 50-104, cross_product_2__ip_2.py 45-106 (both),
   cross_product_1__ip_2.py 31-87, cross_product_2__ip_1.py 47-110,
   cross_product_2__ip_2_2M0.py 40-98: xi.ravel() *)
Definition cross_product (kw ku ke : kind) (sw su se : Space3) (q : Rule3) (J : ejac) (orth : bool) : arr3 :=
  cp3 kw ku ke sw su se q J orth (detJC q J).
(* curl1_cross_product_1__ip_2.py 39-101: xi.ravel('F'), w on the space of u *)
Definition curl_cross (su se : Space3) (q : Rule3) (J : ejac) (orth : bool) : arr3 :=
  cp3 k2 k1 k2 su su se q J orth (detJ q J).

(* __call__, np.einsum('ijk, i -> kj', M, w): output '2-M-1' *)
Definition out_2M1 (M : arr3) (cw : list R) (nj nk : nat) : list (list R) :=
  map (fun k => map (fun j => lsum (map2 (fun Mi a => nth k (nth j Mi []) 0 * a) M cw)) (seq 0 nj)) (seq 0 nk).
(* np.einsum('ijk, j -> ki', M, u): output '2-M-0' *)
Definition out_2M0 (M : arr3) (cu : list R) (nk : nat) : list (list R) :=
  map (fun k => map (fun Mi => lsum (map2 (fun Mij a => nth k Mij 0 * a) Mi cu)) M) (seq 0 nk).
(* cross_product_1__ip_1.py 112-115: np.einsum('ijk, i -> ki', M, u); None: u has
   another number of entries than w *)
Definition out_2M0_11 (M : arr3) (cu : list R) (nk : nat) : option (list (list R)) :=
  if Nat.eqb (length M) (length cu)
  then Some (map (fun k => map2 (fun Mi a => lsum (map (fun Mij => nth k Mij 0) Mi) * a) M cu) (seq 0 nk))
  else None.
(* E21[i] @ cochain, n rows *)
Definition mat_vec (E : nat -> nat -> Z) (c : list R) (n : nat) : list R :=
  map (fun i => lsum (map (fun j => IZR (E i j) * nth j c 0) (seq 0 (length c)))) (seq 0 n).
(* curl1_cross_product_1__ip_2.py 103-107: np.einsum('ijk, i, j -> k', ..) *)
Definition curl_vec (M : arr3) (E : nat -> nat -> Z) (cu : list R) (nk : nat) : list R :=
  map (fun k => lsum (map2 (fun Mi a => lsum (map2 (fun Mij b => nth k Mij 0 * a * b) Mi cu)) M (mat_vec E cu (length M)))) (seq 0 nk).

(* inner_curl_cross_2f2f.py 29-96, orthogonal elements.  sn: the space of degree
   up + Bp; invM: the inverse of the mass matrix of the 1-form on sn; E: its
   E21; q, q2: the rules of the two integrals *)
Definition inner_curl (su sB sb sn : Space3) (q q2 : Rule3) (J : ejac) (invM : list (list R)) (E : nat -> nat -> Z) : arr3 :=
  let cpm := cross_product k2 k2 k1 su sB sn q J true in
  let Mi := inner2 false true sb sn q2 J in
  let n1 := nbasis k1 sn in let n2 := nbasis k2 sn in
  let nu := nbasis k2 su in let nB := nbasis k2 sB in
  let A1 := tab3 n1 nu nB (fun i m n => lsum (map (fun j => nth j (nth i invM []) 0 * get3 cpm m n j) (seq 0 n1))) in
  let A2 := tab3 n2 nu nB (fun j m n => lsum (map (fun i => IZR (E j i) * get3 A1 i m n) (seq 0 n1))) in
  tab3 nu nB (nbasis k2 sb) (fun m n k => lsum (map (fun j => nth j (nth k Mi []) 0 * get3 A2 j m n) (seq 0 n2))).
