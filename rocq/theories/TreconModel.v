(* Basis functions, reconstruction and mass matrices of standard forms on a cell
   of a triangular mesh: objects/miUsGrid/triangular/space/evaluation.py and
   forms/standard.  Over the reals; 2d arrays are lists of rows as in ReconModel;
   sparse matrices are dense; the Jacobian matrix of the cell is an argument, as
   a function of the point.  The pool of bases by transition type in
   base/do.py:41-54 and the caches of matrices are not modelled. *)
From Coq Require Import Reals List ZArith.
From Verif Require Import TfiModel CtModel DiscModel Disc2Model ReconModel TriModel.
Import ListNotations.
Open Scope R_scope.

(* ---------- space/evaluation.py ---------- *)
(* np.sum(A, axis=0), n columns *)
Definition sum_axis0 (A : list (list R)) (n : nat) : list R := map (fun j => lsum (map (fun row => nth j row 0) A)) (seq 0 n).
(* 80-91; xi, et the points along the axes *)
Definition tbasis0 (P : Poly1) (xi et : list R) : list (list R) :=
  let nx := node_basis P xi in
  let ne := node_basis P et in
  sum_axis0 (kron (firstn 1 ne) nx) (length (mesh2 xi et)) :: kron (skipn 1 ne) nx.
(* 97-131 *)
Definition tbasis1 (o : orient) (P : Poly1) (xi et : list R) : list (list R) * list (list R) :=
  let dy := kron (edge_basis P et) (node_basis P xi) in
  let dx := kron (skipn 1 (node_basis P et)) (edge_basis P xi) in
  match o with Outer => (dy, dx) | Inner => (dx, dy) end.
(* 138-147 *)
Definition tbasis2 (P : Poly1) (xi et : list R) : list (list R) := kron (edge_basis P et) (edge_basis P xi).
(* forms/standard/base/do.py 25-56: the 1-forms of cell c, tM[e] @ BASIS with
   the diagonal transition matrix; a cell without a transition matrix is one whose
   signs are all 1 *)
Definition tbasis1_at (o : orient) (P : Poly1) (M : smap) (c : nat) (xi et : list R) : list (list R) * list (list R) :=
  match tbasis1 o P xi et with
  | (b0, b1) =>
      let B := b0 ++ b1 in
      let D := map2 (fun k row => map (Rmult (IZR (transition o (pdeg P) M c k))) row) (seq 0 (length B)) B in
      (firstn (length b0) D, skipn (length b0) D)
  end.

(* ---------- reconstruct/main.py ---------- *)
(* space/num_basis_components.py 23-31 *)
Definition tnum_x (o : orient) (p : nat) : nat := match o with Outer => p * (p + 1) | Inner => p * p end.
(* _0/base 61 *)
Definition trecon0 (P : Poly1) (xi et : list R) (c : list R) : list R := einsum_c (tbasis0 P xi et) c (length (mesh2 xi et)).
(* base/cochain/main.py 21-38 and _1/outer, _1/inner 65-66 *)
Definition tuv (o : orient) (P : Poly1) (M : smap) (e : nat) (xi et : list R) (c : list R) : list (R * R) :=
  match tbasis1_at o P M e xi et with
  | (b0, b1) =>
      combine (einsum_c b0 (firstn (tnum_x o (pdeg P)) c) (length (mesh2 xi et)))
              (einsum_c b1 (skipn (tnum_x o (pdeg P)) c) (length (mesh2 xi et)))
  end.
(* _1/outer 71-72, _1/inner 69-70 *)
Definition tvalue1 (o : orient) (iJ : mat22) (t : R * R) : R * R :=
  match iJ, t with
  | ((a00, a01), (a10, a11)), (u, v) =>
      match o with
      | Outer => (u * a11 - v * a01, - u * a10 + v * a00)
      | Inner => (u * a00 + v * a10, u * a01 + v * a11)
      end
  end.
Definition at2 {A} (h : R -> R -> A) (q : R * R) : A := h (fst q) (snd q).
Definition tiJ (J : ejac2) (q : R * R) : mat22 := ct2_inverse (at2 J q).
Definition trecon1 (o : orient) (P : Poly1) (M : smap) (e : nat) (xi et : list R) (J : ejac2) (c : list R) : list (R * R) :=
  map2 (fun q t => tvalue1 o (tiJ J q) t) (mesh2 xi et) (tuv o P M e xi et c).
(* _2/base 69-74 *)
Definition trecon2 (P : Poly1) (xi et : list R) (J : ejac2) (c : list R) : list R :=
  einsum_c (map (fun row => map2 Rmult row (map (fun q => ct2_inverse_Jacobian (tiJ J q)) (mesh2 xi et))) (tbasis2 P xi et)) c
           (length (mesh2 xi et)).

(* ---------- forms/standard/base/do.py 59-124: make_reconstruction_matrix_on_grid ---------- *)
Definition hstack2 (A B : list (list R)) : list (list R) := map2 (fun a b => a ++ b) A B.
Definition trm0 (P : Poly1) (xi et : list R) : list (list R) := transpose (tbasis0 P xi et) (length (mesh2 xi et)).
Definition trm1 (o : orient) (P : Poly1) (M : smap) (e : nat) (xi et : list R) (J : ejac2) : list (list R) * list (list R) :=
  match tbasis1_at o P M e xi et with
  | (b0, b1) =>
      let n := length (mesh2 xi et) in
      let b0 := transpose b0 n in
      let b1 := transpose b1 n in
      let iJ := map (tiJ J) (mesh2 xi et) in
      let i00 := map (fun m : mat22 => fst (fst m)) iJ in
      let i01 := map (fun m : mat22 => snd (fst m)) iJ in
      let i10 := map (fun m : mat22 => fst (snd m)) iJ in
      let i11 := map (fun m : mat22 => snd (snd m)) iJ in
      match o with
      | Inner => (hstack2 (scale_rows b0 i00) (scale_rows b1 i10), hstack2 (scale_rows b0 i01) (scale_rows b1 i11))
      | Outer => (hstack2 (scale_rows b0 i11) (map (map Ropp) (scale_rows b1 i01)),
                  hstack2 (map (map Ropp) (scale_rows b0 i10)) (scale_rows b1 i00))
      end
  end.
(* einsum 'ij, j -> ji' *)
Definition trm2 (P : Poly1) (xi et : list R) (J : ejac2) : list (list R) :=
  scale_rows (transpose (tbasis2 P xi et) (length (mesh2 xi et))) (map (fun q => ct2_inverse_Jacobian (tiJ J q)) (mesh2 xi et)).

(* ---------- matrices/helpers/inner.py and operators/helpers/inner.py ---------- *)
(* quad_ndim_ravel[-1] of components/quadrature.py: the products of the weights, the first fastest *)
Definition tweights (r0 r1 : rule) : list R := flat_map (fun b => map (fun a => a * b) (snd r0)) (snd r1).
Definition tmesh (r0 r1 : rule) : list (R * R) := mesh2 (fst r0) (fst r1).
(* _0: 29-34; the two bases are the same for the mass matrix *)
Definition tinner0 (P P' : Poly1) (r0 r1 : rule) (J : ejac2) : list (list R) :=
  gram (map2 (fun q w => ct2_Jacobian (at2 J q) * w) (tmesh r0 r1) (tweights r0 r1))
        (tbasis0 P (fst r0) (fst r1)) (tbasis0 P' (fst r0) (fst r1)).
(* _2: 29-34 *)
Definition tinner2 (P P' : Poly1) (r0 r1 : rule) (J : ejac2) : list (list R) :=
  gram (map2 (fun q w => / ct2_Jacobian (at2 J q) * w) (tmesh r0 r1) (tweights r0 r1))
        (tbasis2 P (fst r0) (fst r1)) (tbasis2 P' (fst r0) (fst r1)).
(* _1/outer 29-38, _1/inner 29-38: sqrt_g * g at one point, by block *)
Definition tfac (o : orient) (b b' : bool) (j : mat22) : R :=
  match ct2_inverse_metric_matrix (ct2_inverse j) with
  | ((g00, g01), (g10, g11)) =>
      ct2_Jacobian j *
      match o, b, b' with
      | Outer, false, false => g11
      | Outer, true, true => g00
      | Outer, false, true => - g10
      | Outer, true, false => - g01
      | Inner, false, false => g00
      | Inner, true, true => g11
      | Inner, false, true => g01
      | Inner, true, false => g10
      end
  end.
Definition bmat2 (A B C D : list (list R)) : list (list R) := hstack2 A B ++ hstack2 C D.
(* same: the mass matrix, where M10 = M01.T *)
Definition tinner1 (same : bool) (o : orient) (P P' : Poly1) (M : smap) (e : nat) (r0 r1 : rule) (J : ejac2) : list (list R) :=
  match tbasis1_at o P M e (fst r0) (fst r1), tbasis1_at o P' M e (fst r0) (fst r1) with
  | (b0, b1), (c0, c1) =>
      let W b b' := map2 (fun q w => w * tfac o b b' (at2 J q)) (tmesh r0 r1) (tweights r0 r1) in
      let M00 := gram (W false false) b0 c0 in
      let M11 := gram (W true true) b1 c1 in
      let M01 := gram (W false true) b0 c1 in
      let M10 := if same then transpose M01 (length c1) else gram (W true false) b1 c0 in
      bmat2 M00 M01 M10 M11
  end.

(* ---------- forms/standard/base/do.py 128-168: compute_Ln_energy, one cell ---------- *)
Definition tenergy_scalar (n : nat) (r0 r1 : rule) (J : ejac2) (v : list R) : R :=
  lsum (map2 (fun qw x => x ^ n * snd qw * ct2_Jacobian (at2 J (fst qw))) (combine (tmesh r0 r1) (tweights r0 r1)) v).
Definition tenergy_vector (n : nat) (r0 r1 : rule) (J : ejac2) (v : list (R * R)) : R :=
  lsum (map2 (fun qw x => (fst x ^ n + snd x ^ n) * snd qw * ct2_Jacobian (at2 J (fst qw))) (combine (tmesh r0 r1) (tweights r0 r1)) v).
