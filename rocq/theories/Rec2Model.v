(* Basis functions, reconstruction, inner product and wedge matrices, energies
   and errors of standard forms on a 2D structured mesh:
   objects/CSCG/_2d/spaces/base and forms/standard.  Conventions as in
   TreconModel; each element comes with its Jacobian matrix as a function of the
   point and with orth: the mark of its metric type is a string that starts with
   'Orth'.  The caches by mark are those of C89. *)
From Coq Require Import Reals List.
From Verif Require Import TfiModel CtModel DiscModel Disc2Model ReconModel TriModel TreconModel.
Import ListNotations.
Open Scope R_scope.

(* ---------- spaces/base/do.py 30-105: evaluate_form_basis_at_meshgrid ---------- *)
Record Space2 := mkSpace2 { z0 : Poly1; z1 : Poly1 }.
(* k = 0: 60-65 *)
Definition r2basis0 (s : Space2) (xi et : list R) : list (list R) := kron (node_basis (z1 s) et) (node_basis (z0 s) xi).
(* k = 1: 66-85 *)
Definition r2basis1 (o : orient) (s : Space2) (xi et : list R) : list (list R) * list (list R) :=
  let dxi := kron (node_basis (z1 s) et) (edge_basis (z0 s) xi) in
  let det := kron (edge_basis (z1 s) et) (node_basis (z0 s) xi) in
  match o with Inner => (dxi, det) | Outer => (det, dxi) end.
(* k = 2: 86-91 *)
Definition r2basis2 (s : Space2) (xi et : list R) : list (list R) := kron (edge_basis (z1 s) et) (edge_basis (z0 s) xi).
(* spaces/base/num_basis.py 25-33, 52-60: basis_components[0] and [1] *)
Definition r2num (o : orient) (s : Space2) : nat * nat :=
  let p := pdeg (z0 s) in let q := pdeg (z1 s) in
  match o with Inner => (p * (q + 1), (p + 1) * q)%nat | Outer => ((p + 1) * q, p * (q + 1))%nat end.

(* ---------- reconstruct.py, __call__, not vectorized, one element ---------- *)
Record El2 := mkEl2 { el_orth : bool; el_J : ejac2 }.
(* _0_form/base 114 *)
Definition r2recon0 (s : Space2) (xi et : list R) (c : list R) : list R := einsum_c (r2basis0 s xi et) c (length (mesh2 xi et)).
(* base/cochain.py 31-47 and _1_form/outer, inner: u, v *)
Definition r2uv (o : orient) (s : Space2) (xi et : list R) (c : list R) : list (R * R) :=
  match r2basis1 o s xi et with
  | (b0, b1) =>
      combine (einsum_c b0 (firstn (fst (r2num o s)) c) (length (mesh2 xi et)))
              (einsum_c b1 (skipn (fst (r2num o s)) c) (length (mesh2 xi et)))
  end.
(* _1_form/outer 109-114, _1_form/inner 110-115 *)
Definition r2value1 (o : orient) (orth : bool) (iJ : mat22) (t : R * R) : R * R :=
  match iJ, t with
  | ((a00, a01), (a10, a11)), (u, v) =>
      match o with
      | Outer => if orth then (u * a11, v * a00) else (u * a11 - v * a01, - u * a10 + v * a00)
      | Inner => if orth then (u * a00, v * a11) else (u * a00 + v * a10, u * a01 + v * a11)
      end
  end.
Definition r2recon1 (o : orient) (s : Space2) (xi et : list R) (e : El2) (c : list R) : list (R * R) :=
  map2 (fun q t => r2value1 o (el_orth e) (tiJ (el_J e) q) t) (mesh2 xi et) (r2uv o s xi et c).
(* _2_form/base 91-102 *)
Definition r2recon2 (s : Space2) (xi et : list R) (e : El2) (c : list R) : list R :=
  einsum_c (map (fun row => map2 Rmult row (map (fun q => ct2_inverse_Jacobian (tiJ (el_J e) q)) (mesh2 xi et))) (r2basis2 s xi et)) c
           (length (mesh2 xi et)).

(* ---------- ___PRIVATE_make_reconstruction_matrix_on_grid___ ---------- *)
(* _0_form/base/main.py 69-72 *)
Definition r2rm0 (s : Space2) (xi et : list R) : list (list R) := transpose (r2basis0 s xi et) (length (mesh2 xi et)).
(* _1_form/outer/main.py 68-128, _1_form/inner/main.py 64-125, one element *)
Definition r2rm1 (o : orient) (s : Space2) (xi et : list R) (e : El2) : list (list R) * list (list R) :=
  match r2basis1 o s xi et with
  | (b0, b1) =>
      let n := length (mesh2 xi et) in
      let b0 := transpose b0 n in
      let b1 := transpose b1 n in
      let iJ := map (tiJ (el_J e)) (mesh2 xi et) in
      let i00 := map (fun m : mat22 => fst (fst m)) iJ in
      let i01 := map (fun m : mat22 => snd (fst m)) iJ in
      let i10 := map (fun m : mat22 => fst (snd m)) iJ in
      let i11 := map (fun m : mat22 => snd (snd m)) iJ in
      match o with
      | Outer =>
          let rm00 := scale_rows b0 i11 in
          let rm11 := scale_rows b1 i00 in
          if el_orth e then (hstack2 rm00 (zeros b1), hstack2 (zeros b0) rm11)
          else (hstack2 rm00 (map (map Ropp) (scale_rows b1 i01)), hstack2 (map (map Ropp) (scale_rows b0 i10)) rm11)
      | Inner =>
          let rm00 := scale_rows b0 i00 in
          let rm11 := scale_rows b1 i11 in
          if el_orth e then (hstack2 rm00 (zeros b1), hstack2 (zeros b0) rm11)
          else (hstack2 rm00 (scale_rows b1 i10), hstack2 (scale_rows b0 i01) rm11)
      end
  end.
(* _2_form/base/main.py 81, 86 *)
Definition r2rm2 (s : Space2) (xi et : list R) (e : El2) : list (list R) :=
  scale_rows (transpose (r2basis2 s xi et) (length (mesh2 xi et))) (map (fun q => ct2_inverse_Jacobian (tiJ (el_J e) q)) (mesh2 xi et)).

(* ---------- reconstruct.py, vectorized ---------- *)
(* the local cochain is a dict: element and vector, in order of insertion;
   base/forms/standard/cochain/main.py 33-38: array *)
Definition cochain_array (local : list (nat * list R)) : list (list R) := map snd local.
Fixpoint cochain_at (local : list (nat * list R)) (i : nat) : list R :=
  match local with
  | [] => []
  | (k, c) :: r => if Nat.eqb k i then c else cochain_at r i
  end.
(* mesh/elements/coordinate_transformation/vectorized.py: the arrays of the
   elements, or for hom (homogeneous_according_to_types_wrt_metric) the one of the
   first element for all *)
Definition vec_of {A} (hom : bool) (h : El2 -> A) (els : list El2) : list A :=
  if hom then match els with [] => [] | e :: _ => map (fun _ => h e) els end else map h els.
(* mesh/elements/whether.py 36-45 *)
Definition all_orth (els : list El2) : bool := forallb el_orth els.
(* _0_form/base 70 *)
Definition r2vec0 (s : Space2) (xi et : list R) (cs : list (list R)) : list (list R) := map (r2recon0 s xi et) cs.
(* _1_form/outer 50-92, _1_form/inner 48-80 *)
Definition r2vec1 (o : orient) (s : Space2) (xi et : list R) (hom : bool) (els : list El2) (cs : list (list R)) : list (list (R * R)) :=
  map2 (fun iJ c => map2 (r2value1 o (all_orth els)) iJ (r2uv o s xi et c))
       (vec_of hom (fun e => map (tiJ (el_J e)) (mesh2 xi et)) els) cs.
(* _2_form/base 60-66 *)
Definition r2vec2 (s : Space2) (xi et : list R) (hom : bool) (els : list El2) (cs : list (list R)) : list (list R) :=
  map2 (fun d c => einsum_c (map (fun row => map2 Rmult row d) (r2basis2 s xi et)) c (length (mesh2 xi et)))
       (vec_of hom (fun e => map (fun q => ct2_inverse_Jacobian (tiJ (el_J e) q)) (mesh2 xi et)) els) cs.

(* ---------- ___PRIVATE_operator_inner___, one element ---------- *)
(* _0_form/base/main.py 74-80; rows: other (so), columns: self (ss) *)
Definition r2inner0 (so ss : Space2) (r0 r1 : rule) (e : El2) : list (list R) :=
  gram (map2 (fun q w => ct2_Jacobian (at2 (el_J e) q) * w) (tmesh r0 r1) (tweights r0 r1))
       (r2basis0 so (fst r0) (fst r1)) (r2basis0 ss (fst r0) (fst r1)).
(* _1_form/outer/main.py 130-153, _1_form/inner/main.py 127-151; same: other is self *)
Definition r2inner1 (same : bool) (o : orient) (so ss : Space2) (r0 r1 : rule) (e : El2) : list (list R) :=
  match r2basis1 o so (fst r0) (fst r1), r2basis1 o ss (fst r0) (fst r1) with
  | (b0, b1), (c0, c1) =>
      let W b b' := map2 (fun q w => w * tfac o b b' (at2 (el_J e) q)) (tmesh r0 r1) (tweights r0 r1) in
      let M00 := gram (W false false) b0 c0 in
      let M11 := gram (W true true) b1 c1 in
      if el_orth e then bmat2 M00 (block0 b0 c1) (block0 b1 c0) M11
      else
        let M01 := gram (W false true) b0 c1 in
        let M10 := if same then transpose M01 (length c1) else gram (W true false) b1 c0 in
        bmat2 M00 M01 M10 M11
  end.
(* _2_form/base/main.py 89-103 *)
Definition r2inner2 (so ss : Space2) (r0 r1 : rule) (e : El2) : list (list R) :=
  gram (map2 (fun q w => / ct2_Jacobian (at2 (el_J e) q) * w) (tmesh r0 r1) (tweights r0 r1))
       (r2basis2 so (fst r0) (fst r1)) (r2basis2 ss (fst r0) (fst r1)).

(* ---------- ___PRIVATE_operator_wedge___ ---------- *)
(* _0_form/base/main.py 82-95, _2_form/base/main.py 105-114 *)
Definition r2wedge20 (so ss : Space2) (r0 r1 : rule) : list (list R) :=
  gram (tweights r0 r1) (r2basis2 so (fst r0) (fst r1)) (r2basis0 ss (fst r0) (fst r1)).
Definition r2wedge02 (so ss : Space2) (r0 r1 : rule) : list (list R) :=
  gram (tweights r0 r1) (r2basis0 so (fst r0) (fst r1)) (r2basis2 ss (fst r0) (fst r1)).
(* np.zeros((r, c)) *)
Definition zero_block (r c : nat) : list (list R) := repeat (repeat 0 c) r.
(* _1_form/outer/main.py 160-181, _1_form/inner/main.py 157-176; oo, os: the
   orientations of other and self, which are not looked at *)
Definition r2wedge11 (oo os : orient) (so ss : Space2) (r0 r1 : rule) : list (list R) :=
  match r2basis1 oo so (fst r0) (fst r1), r2basis1 os ss (fst r0) (fst r1) with
  | (b0, b1), (c0, c1) =>
      bmat2 (gram (tweights r0 r1) b0 c0) (zero_block (fst (r2num oo so)) (snd (r2num os ss)))
            (zero_block (snd (r2num oo so)) (fst (r2num os ss))) (gram (tweights r0 r1) b1 c1)
  end.

(* ---------- base/do.py 38-126: compute_Ln_energy, of one core ---------- *)
(* 106-124: element by element *)
Definition r2energy_s (n : nat) (r0 r1 : rule) (els : list El2) (vs : list (list R)) : R :=
  lsum (map2 (fun e v => tenergy_scalar n r0 r1 (el_J e) v) els vs).
Definition r2energy_v (n : nat) (r0 r1 : rule) (els : list El2) (vs : list (list (R * R))) : R :=
  lsum (map2 (fun e v => tenergy_vector n r0 r1 (el_J e) v) els vs).
(* 70-101: vectorized; one einsum over elements and points *)
Definition r2energy_vec (r0 r1 : rule) (hom : bool) (els : list El2) (vs : list (list R)) : R :=
  lsum (map2 (fun d v => lsum (map2 (fun x dw => x * fst dw * snd dw) v (combine d (tweights r0 r1))))
             (vec_of hom (fun e => map (fun q => ct2_Jacobian (at2 (el_J e) q)) (tmesh r0 r1)) els) vs).
Definition r2pow_s (n : nat) (vs : list (list R)) : list (list R) := map (map (fun x => x ^ n)) vs.
Definition r2pow_v (n : nat) (vs : list (list (R * R))) : list (list R) := map (map (fun x => fst x ^ n + snd x ^ n)) vs.

(* ---------- base/do.py 128-160: compute_L2_energy_with ---------- *)
Definition quad_form (M : list (list R)) (a b : list R) : R :=
  lsum (map2 (fun row x => lsum (map2 (fun m y => m * x * y) row b)) M a).
(* M: the matrix of each element *)
Definition r2L2_with (hom : bool) (els : list El2) (M : El2 -> list (list R)) (co cs : list (list R)) : R :=
  lsum (map2 (fun m ab => quad_form m (fst ab) (snd ab)) (vec_of hom M els) (combine co cs)).
