(* Vortex detection and the projections of 3D 1- and 2-forms, one element:
   objects/CSCG/_3d/forms/standard/_1s/special/vortex_detection.py (and _2s, the
   same), _1s/project/to.py, _2s/project/to.py.  Conventions as in ReconModel;
   arrays in order 'F'.  to.py reads self._sf_.IS_hybrid, which forms do not have
   (and _2s passes is_hybrid, which 0-forms do not take): the model is with
   whether.hybrid in its place, see DESIGN.md. *)
From Coq Require Import Reals List ZArith Arith.
From Verif Require Import TfiModel CtModel SpaceModel DiscModel ReconModel CrossModel.
Import ListNotations.
Open Scope R_scope.

(* ---------- project/to.py: vector_of_3_standard_0forms ---------- *)
Inductive vkind := vk1 | vk2.
Definition vrecon (k : vkind) (s : Space3) (m : Mesh3) (J : ejac) (orth : bool) (c : list R) : list (R * R * R) :=
  match k with vk1 => recon1 s m J orth c | vk2 => recon2 s m J orth c end.
(* _1s 79-91, _2s 40-51: nodes are space.nodes *)
Definition proj3 (k : vkind) (s : Space3) (nodes : Mesh3) (J : ejac) (orth : bool) (c : list R) : list R * list R * list R :=
  let v := vrecon k s nodes J orth c in
  (map (fun t => TfiModel.get t cX) v, map (fun t => TfiModel.get t cY) v, map (fun t => TfiModel.get t cZ) v).

(* ---------- project/to.py 14-46: standard_2form ---------- *)
Section Inverse.
(* matrices.mass.inv: an inverse, from scipy *)
Variable inv : list (list R) -> list (list R).
Definition mat_c (M : list (list R)) (c : list R) : list R := map (fun row => lsum (map2 Rmult row c)) M.
(* so: the space of one degree more *)
Definition proj2 (so s : Space3) (q : Rule3) (J : ejac) (orth : bool) (c : list R) : list R :=
  mat_c (inv (inner2 true orth so so q J)) (mat_c (wedge12 so s q) c).
End Inverse.

(* ---------- vortex_detection.py ---------- *)
(* 43-62: dU.reconstruct; one gradient by point *)
Definition grad_of (s : Space3) (m : Mesh3) (J : ejac) (orth : bool) (E : nat -> nat -> Z) (c : list R) : list (R * R * R) :=
  recon1 s m J orth (mat_vec E c (nbasis k1 s)).
(* 16-62; None: no incidence matrix *)
Definition grad_tensor (k : vkind) (s : Space3) (nodes m : Mesh3) (J : ejac) (orth : bool) (c : list R) : option (list mat3) :=
  match E10 [pdeg (s0 s); pdeg (s1 s); pdeg (s2 s)] with
  | None => None
  | Some E =>
      match proj3 k s nodes J orth c with
      | (U, V, W) => Some (map2 (fun uv w => (uv, w)) (map2 pair (grad_of s m J orth E U) (grad_of s m J orth E V)) (grad_of s m J orth E W))
      end
  end.
(* 93-129, one point *)
Definition S_of (u : mat3) : mat3 :=
  match u with
  | ((u00, u01, u02), (u10, u11, u12), (u20, u21, u22)) =>
      let s01 := 1 / 2 * (u01 + u10) in
      let s02 := 1 / 2 * (u02 + u20) in
      let s12 := 1 / 2 * (u12 + u21) in
      ((u00, s01, s02), (s01, u11, s12), (s02, s12, u22))
  end.
Definition O_of (u : mat3) : mat3 :=
  match u with
  | ((u00, u01, u02), (u10, u11, u12), (u20, u21, u22)) =>
      let o01 := 1 / 2 * (u01 - u10) in
      let o02 := 1 / 2 * (u02 - u20) in
      let o12 := 1 / 2 * (u12 - u21) in
      ((0, o01, o02), (- o01, 0, o12), (- o02, - o12, 0))
  end.
(* 168-190 *)
Definition so_of (u : mat3) : mat3 :=
  match S_of u, O_of u with
  | ((s00, s01, s02), (s10, s11, s12), (s20, s21, s22)), ((o00, o01, o02), (o10, o11, o12), (o20, o21, o22)) =>
      ((s00 ^ 2 + o00 ^ 2, s01 ^ 2 + o01 ^ 2, s02 ^ 2 + o02 ^ 2),
       (s10 ^ 2 + o10 ^ 2, s11 ^ 2 + o11 ^ 2, s12 ^ 2 + o12 ^ 2),
       (s20 ^ 2 + o20 ^ 2, s21 ^ 2 + o21 ^ 2, s22 ^ 2 + o22 ^ 2))
  end.
(* 192-195: of the eigenvalues of so, as np.linalg.eig returns them *)
Definition Q_of (e : R * R * R) : R := match e with (a, b, c) => - (1 / 2) * (a + b + c) end.
Fixpoint rinsert (x : R) (l : list R) : list R :=
  match l with
  | [] => [x]
  | y :: r => if Rle_dec x y then x :: l else y :: rinsert x r
  end.
Definition rsort (l : list R) : list R := fold_right rinsert [] l.
Definition lambda2_of (e : R * R * R) : R := match e with (a, b, c) => nth 1 (rsort [a; b; c]) 0 end.
