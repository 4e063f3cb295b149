(* Reconstruction of standard forms and their mass and wedge matrices, for one
   element of a 3D structured mesh: objects/CSCG/_3d/forms/standard/_0s, _1s,
   _2s, _3s/reconstruct.py and inheriting/private.py, _3d/spaces/base/do.py.
   Over the reals; rounding is not modelled.  2d arrays are lists of rows.  The
   Jacobian matrix of the element is an argument, as a function of the point;
   the caches by metric type are those of C89.  Sparse matrices are dense. *)
From Coq Require Import Reals List.
From Verif Require Import TfiModel CtModel DiscModel.
Import ListNotations.
Open Scope R_scope.

(* ---------- base/spaces/_1d_basis/polynomials.py ---------- *)
(* the degree and the basis functions, see BasisModel *)
Record Poly1 := mkPoly1 { pdeg : nat; node_fn : nat -> R -> R; edge_fn : nat -> R -> R }.
(* node_basis(x=..), edge_basis(x=..): one row per function *)
Definition node_basis (P : Poly1) (x : list R) : list (list R) := map (fun i => map (node_fn P i) x) (seq 0 (pdeg P + 1)).
Definition edge_basis (P : Poly1) (x : list R) : list (list R) := map (fun i => map (edge_fn P i) x) (seq 0 (pdeg P)).
(* np.kron of 2d arrays *)
Definition kron (A B : list (list R)) : list (list R) :=
  flat_map (fun a => map (fun b => flat_map (fun x => map (Rmult x) b) a) B) A.

(* ---------- spaces/base/do.py 82-183: evaluate_form_basis_at_meshgrid ---------- *)
Record Space3 := mkSpace3 { s0 : Poly1; s1 : Poly1; s2 : Poly1 }.
Record Mesh3 := mkMesh3 { mx : list R; my : list R; mz : list R }.
(* k = 0: 122-128 *)
Definition basis0 (s : Space3) (m : Mesh3) : list (list R) :=
  kron (kron (node_basis (s2 s) (mz m)) (node_basis (s1 s) (my m))) (node_basis (s0 s) (mx m)).
(* k = 1: 130-146 *)
Definition basis1 (s : Space3) (m : Mesh3) : list (list R) * list (list R) * list (list R) :=
  (kron (kron (node_basis (s2 s) (mz m)) (node_basis (s1 s) (my m))) (edge_basis (s0 s) (mx m)),
   kron (kron (node_basis (s2 s) (mz m)) (edge_basis (s1 s) (my m))) (node_basis (s0 s) (mx m)),
   kron (kron (edge_basis (s2 s) (mz m)) (node_basis (s1 s) (my m))) (node_basis (s0 s) (mx m))).
(* k = 2: 148-164 *)
Definition basis2 (s : Space3) (m : Mesh3) : list (list R) * list (list R) * list (list R) :=
  (kron (kron (edge_basis (s2 s) (mz m)) (edge_basis (s1 s) (my m))) (node_basis (s0 s) (mx m)),
   kron (kron (edge_basis (s2 s) (mz m)) (node_basis (s1 s) (my m))) (edge_basis (s0 s) (mx m)),
   kron (kron (node_basis (s2 s) (mz m)) (edge_basis (s1 s) (my m))) (edge_basis (s0 s) (mx m))).
(* k = 3: 166-172 *)
Definition basis3 (s : Space3) (m : Mesh3) : list (list R) :=
  kron (kron (edge_basis (s2 s) (mz m)) (edge_basis (s1 s) (my m))) (edge_basis (s0 s) (mx m)).
(* ___PRIVATE_evaluate_basis_functions_meshgrid_3d___ 185-191 *)
Definition points (m : Mesh3) : list (R * R * R) := mesh3 (mx m) (my m) (mz m).
Definition at_pt {A} (h : R -> R -> R -> A) (q : R * R * R) : A := match q with (x, y, z) => h x y z end.

(* num.basis_components of 1- and 2-forms *)
Definition nums1 (s : Space3) : nat * nat * nat :=
  let p := pdeg (s0 s) in let q := pdeg (s1 s) in let r := pdeg (s2 s) in
  (p * (q + 1) * (r + 1), (p + 1) * q * (r + 1), (p + 1) * (q + 1) * r)%nat.
Definition nums2 (s : Space3) : nat * nat * nat :=
  let p := pdeg (s0 s) in let q := pdeg (s1 s) in let r := pdeg (s2 s) in
  ((p + 1) * q * r, p * (q + 1) * r, p * q * (r + 1))%nat.
(* base/cochain/main.py 40-59: ___PRIVATE_local_on_axis___; [-n:] is everything
   if n is 0 *)
Definition on_axis (n : nat * nat * nat) (a : coord) (c : list R) : list R :=
  match n with
  | (n0, n1, n2) =>
      match a with
      | cX => firstn n0 c
      | cY => firstn n1 (skipn n0 c)
      | cZ => if Nat.eqb n2 0 then c else skipn (length c - n2) c
      end
  end.
(* np.einsum('ij, i -> j', B, c): entry j of n *)
Definition einsum_c (B : list (list R)) (c : list R) (n : nat) : list R :=
  map (fun j => lsum (map2 (fun row a => nth j row 0 * a) B c)) (seq 0 n).

(* ---------- reconstruct.py, __call__, one element ---------- *)
(* _0s 94 *)
Definition recon0 (s : Space3) (m : Mesh3) (c : list R) : list R := einsum_c (basis0 s m) c (length (points m)).
(* _1s 84-91: u, v, w at one point *)
Definition value1 (orth : bool) (iJ : mat3) (t : R * R * R) : R * R * R :=
  match iJ, t with
  | ((a00, a01, a02), (a10, a11, a12), (a20, a21, a22)), (u, v, w) =>
      if orth then (u * a00, v * a11, w * a22)
      else (u * a00 + v * a10 + w * a20, u * a01 + v * a11 + w * a21, u * a02 + v * a12 + w * a22)
  end.
(* _2s 95-127 *)
Definition value2 (orth : bool) (iJ : mat3) (t : R * R * R) : R * R * R :=
  match iJ, t with
  | ((a00, a01, a02), (a10, a11, a12), (a20, a21, a22)), (u, v, w) =>
      if orth then (u * (a11 * a22), v * (a22 * a00), w * (a00 * a11))
      else (u * (a11 * a22 - a12 * a21) + v * (a21 * a02 - a22 * a01) + w * (a01 * a12 - a02 * a11),
            u * (a12 * a20 - a10 * a22) + v * (a22 * a00 - a20 * a02) + w * (a02 * a10 - a00 * a12),
            u * (a10 * a21 - a11 * a20) + v * (a20 * a01 - a21 * a00) + w * (a00 * a11 - a01 * a10))
  end.
Definition three (n : nat * nat * nat) (B : list (list R) * list (list R) * list (list R)) (c : list R) (k : nat)
    : list (R * R * R) :=
  match B with
  | (b0, b1, b2) =>
      combine (combine (einsum_c b0 (on_axis n cX c) k) (einsum_c b1 (on_axis n cY c) k)) (einsum_c b2 (on_axis n cZ c) k)
  end.
Definition iJ_at (J : R -> R -> R -> mat3) (q : R * R * R) : mat3 := ct_inverse_Jacobian_matrix (at_pt J q).
Definition recon1 (s : Space3) (m : Mesh3) (J : ejac) (orth : bool) (c : list R) : list (R * R * R) :=
  map2 (fun q t => value1 orth (iJ_at J q) t) (points m) (three (nums1 s) (basis1 s m) c (length (points m))).
Definition recon2 (s : Space3) (m : Mesh3) (J : ejac) (orth : bool) (c : list R) : list (R * R * R) :=
  map2 (fun q t => value2 orth (iJ_at J q) t) (points m) (three (nums2 s) (basis2 s m) c (length (points m))).
(* _3s 112-123: (basis[0] * det_iJ) and the cochain *)
Definition recon3 (s : Space3) (m : Mesh3) (J : ejac) (c : list R) : list R :=
  einsum_c (map (fun row => map2 Rmult row (map (fun q => ct_inverse_Jacobian (iJ_at J q)) (points m))) (basis3 s m)) c
           (length (points m)).

(* ---------- inheriting/private.py: ___PRIVATE_make_reconstruction_matrix_on_grid___ ---------- *)
(* b.T, n columns *)
Definition transpose (B : list (list R)) (n : nat) : list (list R) :=
  map (fun j => map (fun row => nth j row 0) B) (seq 0 n).
(* np.einsum('ji, j -> ji', b, v) *)
Definition scale_rows (b : list (list R)) (v : list R) : list (list R) := map2 (fun row a => map (fun x => x * a) row) b v.
Definition hstack3 (A B C : list (list R)) : list (list R) := map2 (fun a bc => a ++ bc) A (map2 (fun b c => b ++ c) B C).
Definition zeros (b : list (list R)) : list (list R) := map (map (fun x => 0 * x)) b.
Definition rm3 (b0 b1 b2 : list (list R)) (u v w : list R) : list (list R) :=
  hstack3 (scale_rows b0 u) (scale_rows b1 v) (scale_rows b2 w).
Definition ment (i j : coord) (m : mat3) : R :=
  match m with (u, v, w) => get (match i with cX => u | cY => v | cZ => w end) j end.
(* _0s 39-42 *)
Definition rm_0 (s : Space3) (m : Mesh3) : list (list R) := transpose (basis0 s m) (length (points m)).
(* _1s 35-105, of one element *)
Definition rm_1 (s : Space3) (m : Mesh3) (J : ejac) (orth : bool) : list (list R) * list (list R) * list (list R) :=
  let n := length (points m) in
  let iJ := map (iJ_at J) (points m) in
  match basis1 s m with
  | (b0, b1, b2) =>
      let b0 := transpose b0 n in let b1 := transpose b1 n in let b2 := transpose b2 n in
      let g i j := map (ment i j) iJ in
      if orth then
        (hstack3 (scale_rows b0 (g cX cX)) (zeros b1) (zeros b2),
         hstack3 (zeros b0) (scale_rows b1 (g cY cY)) (zeros b2),
         hstack3 (zeros b0) (zeros b1) (scale_rows b2 (g cZ cZ)))
      else
        (rm3 b0 b1 b2 (g cX cX) (g cY cX) (g cZ cX),
         rm3 b0 b1 b2 (g cX cY) (g cY cY) (g cZ cY),
         rm3 b0 b1 b2 (g cX cZ) (g cY cZ) (g cZ cZ))
  end.
(* _2s 36-122: _0u .. _2w of the inverse Jacobian matrix *)
Definition cof2 (i j : coord) (m : mat3) : R :=
  match m with
  | ((a00, a01, a02), (a10, a11, a12), (a20, a21, a22)) =>
      match i, j with
      | cX, cX => a11 * a22 - a12 * a21
      | cX, cY => a21 * a02 - a22 * a01
      | cX, cZ => a01 * a12 - a02 * a11
      | cY, cX => a12 * a20 - a10 * a22
      | cY, cY => a22 * a00 - a20 * a02
      | cY, cZ => a02 * a10 - a00 * a12
      | cZ, cX => a10 * a21 - a11 * a20
      | cZ, cY => a20 * a01 - a21 * a00
      | cZ, cZ => a00 * a11 - a01 * a10
      end
  end.
Definition rm_2 (s : Space3) (m : Mesh3) (J : ejac) (orth : bool) : list (list R) * list (list R) * list (list R) :=
  let n := length (points m) in
  let iJ := map (iJ_at J) (points m) in
  match basis2 s m with
  | (b0, b1, b2) =>
      let b0 := transpose b0 n in let b1 := transpose b1 n in let b2 := transpose b2 n in
      let g i j := map (cof2 i j) iJ in
      if orth then
        (hstack3 (scale_rows b0 (g cX cX)) (zeros b1) (zeros b2),
         hstack3 (zeros b0) (scale_rows b1 (g cY cY)) (zeros b2),
         hstack3 (zeros b0) (zeros b1) (scale_rows b2 (g cZ cZ)))
      else
        (rm3 b0 b1 b2 (g cX cX) (g cX cY) (g cX cZ),
         rm3 b0 b1 b2 (g cY cX) (g cY cY) (g cY cZ),
         rm3 b0 b1 b2 (g cZ cX) (g cZ cY) (g cZ cZ))
  end.
(* _3s 33-62 *)
Definition rm_3 (s : Space3) (m : Mesh3) (J : ejac) : list (list R) :=
  transpose (map (fun row => map2 Rmult row (map (fun q => ct_inverse_Jacobian (iJ_at J q)) (points m))) (basis3 s m))
            (length (points m)).

(* ---------- components/quadrature.py 109-131 ---------- *)
(* quad_ndim_ravel[-1]: np.tensordot of the weights, raveled in order 'F' *)
Definition weights3 (w0 w1 w2 : list R) : list R :=
  flat_map (fun c => flat_map (fun b => map (fun a => a * b * c) w0) w1) w2.

(* ---------- inheriting/private.py: ___PRIVATE_operator_inner___ ---------- *)
(* np.einsum('m, im, jm -> ij', w, bfO, bfS) *)
Definition gram (w : list R) (bo bs : list (list R)) : list (list R) :=
  map (fun o => map (fun t => lsum (map2 (fun a b => a * b) w (map2 Rmult o t))) bs) bo.
(* a block None of bmat *)
Definition block0 (bo bs : list (list R)) : list (list R) := map (fun _ => map (fun _ => 0) bs) bo.
(* scipy's bmat of three by three blocks; None is a block of zeros *)
Definition bmat3 (M00 M01 M02 M10 M11 M12 M20 M21 M22 : list (list R)) : list (list R) :=
  hstack3 M00 M01 M02 ++ hstack3 M10 M11 M12 ++ hstack3 M20 M21 M22.
(* the quadrature rules of the three axes *)
Record Rule3 := mkRule3 { q0 : rule; q1 : rule; q2 : rule }.
Definition qmesh (q : Rule3) : Mesh3 := mkMesh3 (fst (q0 q)) (fst (q1 q)) (fst (q2 q)).
Definition qw (q : Rule3) : list R := weights3 (snd (q0 q)) (snd (q1 q)) (snd (q2 q)).
Definition detJ (q : Rule3) (J : ejac) : list R := map (fun x => ct_Jacobian (at_pt J x)) (points (qmesh q)).
(* _0s 45-52 *)
Definition inner0 (so s : Space3) (q : Rule3) (J : ejac) : list (list R) :=
  gram (map2 Rmult (detJ q J) (qw q)) (basis0 so (qmesh q)) (basis0 s (qmesh q)).
(* the factors sqrtg * g[i][j] of _1s 112-143 and sqrtg * (...) of _2s 140-176 *)
Definition fac1 (i j : coord) (J : mat3) : R :=
  ct_Jacobian J * ment i j (ct_inverse_metric_matrix (ct_inverse_Jacobian_matrix J)).
Definition fac2 (orth : bool) (i j : coord) (J : mat3) : R :=
  match ct_inverse_metric_matrix (ct_inverse_Jacobian_matrix J) with
  | ((g00, g01, g02), (g10, g11, g12), (g20, g21, g22)) =>
      ct_Jacobian J *
      match i, j with
      | cX, cX => if orth then g11 * g22 else g11 * g22 - g12 * g21
      | cY, cY => if orth then g22 * g00 else g22 * g00 - g20 * g02
      | cZ, cZ => if orth then g00 * g11 else g00 * g11 - g01 * g10
      | cX, cY | cY, cX => g12 * g20 - g10 * g22
      | cX, cZ | cZ, cX => g10 * g21 - g11 * g20
      | cY, cZ | cZ, cY => g20 * g01 - g21 * g00
      end
  end.
(* _1s 104-146, _2s 128-182.  same: other is self *)
Definition inner_blocks (fac : coord -> coord -> mat3 -> R) (same orth : bool) (q : Rule3) (J : ejac)
    (bo bs : list (list R) * list (list R) * list (list R)) : list (list R) :=
  match bo, bs with
  | (o0, o1, o2), (b0, b1, b2) =>
      let w i j := map2 (fun a x => a * fac i j (at_pt J x)) (qw q) (points (qmesh q)) in
      let M00 := gram (w cX cX) o0 b0 in
      let M11 := gram (w cY cY) o1 b1 in
      let M22 := gram (w cZ cZ) o2 b2 in
      if orth then
        bmat3 M00 (block0 o0 b1) (block0 o0 b2) (block0 o1 b0) M11 (block0 o1 b2) (block0 o2 b0) (block0 o2 b1) M22
      else
        let M01 := gram (w cX cY) o0 b1 in
        let M02 := gram (w cX cZ) o0 b2 in
        let M12 := gram (w cY cZ) o1 b2 in
        let M10 := if same then transpose M01 (length b1) else gram (w cY cX) o1 b0 in
        let M20 := if same then transpose M02 (length b2) else gram (w cZ cX) o2 b0 in
        let M21 := if same then transpose M12 (length b2) else gram (w cZ cY) o2 b1 in
        bmat3 M00 M01 M02 M10 M11 M12 M20 M21 M22
  end.
Definition inner1 (same orth : bool) (so s : Space3) (q : Rule3) (J : ejac) : list (list R) :=
  inner_blocks fac1 same orth q J (basis1 so (qmesh q)) (basis1 s (qmesh q)).
Definition inner2 (same orth : bool) (so s : Space3) (q : Rule3) (J : ejac) : list (list R) :=
  inner_blocks (fac2 orth) same orth q J (basis2 so (qmesh q)) (basis2 s (qmesh q)).
(* _3s 64-73 *)
Definition inner3 (so s : Space3) (q : Rule3) (J : ejac) : list (list R) :=
  gram (map2 Rmult (map (fun x => / x) (detJ q J)) (qw q)) (basis3 so (qmesh q)) (basis3 s (qmesh q)).

(* ___PRIVATE_operator_wedge___, _1s 240-263: rows the 2-form f2 on so, columns
   the 1-form self on s *)
Definition wedge12 (so s : Space3) (q : Rule3) : list (list R) :=
  match basis2 so (qmesh q), basis1 s (qmesh q) with
  | (o0, o1, o2), (b0, b1, b2) =>
      bmat3 (gram (qw q) o0 b0) (block0 o0 b1) (block0 o0 b2) (block0 o1 b0) (gram (qw q) o1 b1) (block0 o1 b2)
            (block0 o2 b0) (block0 o2 b1) (gram (qw q) o2 b2)
  end.
