(* 0- and 2-trace forms of 3D structured meshes, for one trace element:
   objects/CSCG/_3d/forms/trace/_0tr and _2tr (main.py and discretize/),
   _3d/spaces/base/do.py 196-266.  Over the reals; rounding is not modelled.  The trace element is given by the map F and the
   Jacobian matrix J of its CHARACTERISTIC_element and by its
   CHARACTERISTIC_side.  Mass matrices are computed for every trace element;
   the caches by metric type are those of C89. *)
From Coq Require Import Reals List Arith.
From Verif Require Import TfiModel CtModel DiscModel ReconModel.
Import ListNotations.
Open Scope R_scope.

(* ---------- spaces/base/do.py 196-266: evaluate_trace_basis_at_meshgrid ---------- *)
(* _meshgrid_ravel_ 216-225 *)
Definition side_points (s : tside) (m : Mesh3) : list (R * R * R) :=
  match s with
  | tN => mesh3 [-1] (my m) (mz m) | tS => mesh3 [1] (my m) (mz m)
  | tW => mesh3 (mx m) [-1] (mz m) | tE => mesh3 (mx m) [1] (mz m)
  | tB => mesh3 (mx m) (my m) [-1] | tF => mesh3 (mx m) (my m) [1]
  end.
(* k = 0 (230-236) and k = 2 (248-254); 262-266 for S, E, F *)
Inductive tdeg := D0 | D2.
Definition basis_1d (k : tdeg) (P : Poly1) (x : list R) : list (list R) :=
  match k with D0 => node_basis P x | D2 => edge_basis P x end.
Definition side_basis (k : tdeg) (sp : Space3) (m : Mesh3) (s : tside) : list (list R) :=
  let xi := basis_1d k (s0 sp) (mx m) in
  let et := basis_1d k (s1 sp) (my m) in
  let si := basis_1d k (s2 sp) (mz m) in
  match s with
  | tN | tS => kron si et
  | tW | tE => kron si xi
  | tB | tF => kron et xi
  end.

(* ---------- reconstruct: _0tr/main.py 107-138, _2tr/main.py 107-155 ---------- *)
(* te.coordinate_transformation.metric at full points; with three evaluation
   points ___generate_full_ep___ returns them (trace/elements/main.py 366-372) *)
Definition side_metric (J : ejac) (s : tside) (q : R * R * R) : R := tr_metric (tr_Jacobian_matrix (at_pt J q) s).
(* np.einsum('i, ij -> j', ..) *)
Definition trf_recon0 (sp : Space3) (m : Mesh3) (s : tside) (c : list R) : list R :=
  einsum_c (side_basis D0 sp m s) c (length (side_points s m)).
(* np.einsum('i, j, ij -> j', cochain, 1 / np.sqrt(g), ..) *)
Definition trf_recon2 (sp : Space3) (m : Mesh3) (J : ejac) (s : tside) (c : list R) : list R :=
  let r := map (fun q => 1 / sqrt (side_metric J s q)) (side_points s m) in
  map (fun j => lsum (map2 (fun row a => a * nth j r 0 * nth j row 0) (side_basis D2 sp m s) c))
      (seq 0 (length (side_points s m))).

(* ---------- ___PRIVATE_generate_TEW_mass_matrices___: _0tr 140-181, _2tr 157-198 ---------- *)
(* np.kron of vectors *)
Definition kron_v (a b : list R) : list R := flat_map (fun x => map (Rmult x) b) a.
Definition side_weights_q (q : Rule3) (s : tside) : list R :=
  match s with
  | tN | tS => kron_v (snd (q2 q)) (snd (q1 q))
  | tW | tE => kron_v (snd (q2 q)) (snd (q0 q))
  | tB | tF => kron_v (snd (q1 q)) (snd (q0 q))
  end.
Definition trf_mass (k : tdeg) (sp : Space3) (q : Rule3) (J : ejac) (s : tside) : list (list R) :=
  let b := side_basis k sp (qmesh q) s in
  let f := map (fun x => let g := side_metric J s x in match k with D0 => sqrt g | D2 => / sqrt g end)
               (side_points s (qmesh q)) in
  gram (map2 Rmult f (side_weights_q q s)) b b.

(* ---------- _0tr/discretize ---------- *)
(* te.coordinate_transformation.mapping(a, b, from_element=.., side=..) *)
Definition side_at {A} (h : R -> R -> R -> A) (s : tside) (ab : R * R) : A :=
  at_pt h (full_ep s (fst ab) (snd ab)).
(* the two of three things that belong to a side *)
Definition side_pair {A} (s : tside) (x y z : A) : A * A :=
  match s with tN | tS => (y, z) | tW | tE => (x, z) | tB | tF => (x, y) end.
(* np.meshgrid(a, b, indexing='ij') raveled in order 'F' *)
Definition grid2F (a b : list R) : list (R * R) := flat_map (fun y => map (fun x => (x, y)) a) b.
(* scalar/standard.py 27-57 *)
Definition trf_disc0 (n0 n1 n2 : list R) (F : emap) (s : tside) (f : R -> R -> R -> R) : list R :=
  let (a, b) := side_pair s n0 n1 n2 in map (side_at (at_map f F) s) (grid2F a b).
(* f0 * ouv[0] + f1 * ouv[1] + f2 * ouv[2] *)
Definition normal_part (F : emap) (J : ejac) (s : tside) (v : field) (x y z : R) : R :=
  match unit_normal (tr_Jacobian_matrix (J x y z) s) with
  | (a, b, c) => at_map (v cX) F x y z * a + at_map (v cY) F x y z * b + at_map (v cZ) F x y z * c
  end.
(* vector/standard/flux.py 28-68 *)
Definition trf_disc0v (n0 n1 n2 : list R) (F : emap) (J : ejac) (s : tside) (v : field) : list R :=
  let (a, b) := side_pair s n0 n1 n2 in map (side_at (normal_part F J s v) s) (grid2F a b).

(* ---------- _2tr/discretize: scalar/standard.py and vector/standard.py ---------- *)
(* qnodes, scalar 37-42 *)
Definition quad_nodes (n q : list R) : list (list R) :=
  map2 (fun x0 len => map (fun x => (x + 1) / 2 * len + x0) q) (init n) (diffs n).
(* qn_NS_y, qn_NS_z, .. 43-70: one array of points for each cell, the loop over
   the first axis inside; pa, pb are SELF.p *)
Definition cell_points (na nb : list R) (pa pb : nat) (qa qb : list R) : list (list (list (R * R))) :=
  flat_map (fun k => map (fun j => map (fun x => map (fun y => (x, y)) (nth k (quad_nodes nb qb) [])) (nth j (quad_nodes na qa) []))
                         (seq 0 pa)) (seq 0 pb).
(* area_NS, .. *)
Definition cell_areas (na nb : list R) : list R := map (fun x => x * (1 / 4)) (kron_v (diffs nb) (diffs na)).
(* np.einsum('mij, i, j, m -> m', h, qw0, qw1, area) *)
Definition trf_disc2_with (h : R -> R -> R -> R) (n0 n1 n2 : list R) (p0 p1 p2 : nat) (r0 r1 r2 : rule) (s : tside) : list R :=
  let (na, nb) := side_pair s n0 n1 n2 in
  let (pa, pb) := side_pair s p0 p1 p2 in
  let (ra, rb) := side_pair s r0 r1 r2 in
  map2 (fun cell area =>
          lsum (map2 (fun row a => lsum (map2 (fun ab b => side_at h s ab * a * b * area) row (snd rb))) cell (snd ra)))
       (cell_points na nb pa pb (fst ra) (fst rb)) (cell_areas na nb).
(* scalar 106-139; boundary_wise.py does the same with the function of the
   boundary for the trace elements of that boundary *)
Definition trf_disc2 (n0 n1 n2 : list R) (p0 p1 p2 : nat) (r0 r1 r2 : rule) (F : emap) (J : ejac) (s : tside)
    (f : R -> R -> R -> R) : list R :=
  trf_disc2_with (fun x y z => at_map f F x y z * sqrt (side_metric J s (x, y, z))) n0 n1 n2 p0 p1 p2 r0 r1 r2 s.
(* vector 114-152 *)
Definition trf_disc2v (n0 n1 n2 : list R) (p0 p1 p2 : nat) (r0 r1 r2 : rule) (F : emap) (J : ejac) (s : tside)
    (v : field) : list R :=
  trf_disc2_with (fun x y z => normal_part F J s v x y z * sqrt (side_metric J s (x, y, z))) n0 n1 n2 p0 p1 p2 r0 r1 r2 s.
