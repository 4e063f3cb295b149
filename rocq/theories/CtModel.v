(* Coordinate transformations of the elements and trace elements of 3D
   structured meshes, pointwise over the reals.  Arrays of points are handled
   elementwise by numpy; one point is modelled. *)
From Coq Require Import Reals List QArith Qcanon Qreals.
From Verif Require Import TfiModel SpacingModel.
Import ListNotations.
Open Scope R_scope.

(* ---------- elements/element/coordinate_transformation.py ---------- *)
(* origin 18-28 and delta 30-39 of an element in the unit cube of its region *)
Record Elem := mkElem { e_o : R * R * R; e_d : R * R * R }.
(* (evaluationPoints[j] + 1) * 0.5 * self.delta[j] + self.origin[j] *)
Definition to_ref (e : Elem) (c : coord) (x : R) : R := (x + 1) * (1 / 2) * get (e_d e) c + get (e_o e) c.
(* mapping 41-44 and X, Y, Z 46-59; f is the map of the region *)
Definition ct_mapping (f : coord -> R -> R -> R -> R) (e : Elem) (c : coord) (xi eta sg : R) : R :=
  f c (to_ref e cX xi) (to_ref e cY eta) (to_ref e cZ sg).

(* Jacobian_matrix 61-81; m is Jacobian_matrix of the region; orth: the mark
   starts with 'Orth' *)
Definition row_times (v d : R * R * R) : R * R * R :=
  match v, d with (a, b, c), (x, y, z) => (a * (x / 2), b * (y / 2), c * (z / 2)) end.
Definition ct_Jacobian_matrix (m : R -> R -> R -> mat3) (orth : bool) (e : Elem) (xi eta sg : R) : mat3 :=
  let rst := m (to_ref e cX xi) (to_ref e cY eta) (to_ref e cZ sg) in
  if orth then
    match rst, e_d e with
    | ((a, _, _), (_, b, _), (_, _, c)), (x, y, z) =>
        ((a * (x / 2), 0, 0), (0, b * (y / 2), 0), (0, 0, c * (z / 2)))
    end
  else
    match rst with
    | (u, v, w) => (row_times u (e_d e), row_times v (e_d e), row_times w (e_d e))
    end.
(* J00 ... J22, 82-125: row i, column j *)
Definition ct_J (m : R -> R -> R -> mat3) (e : Elem) (i j : coord) (xi eta sg : R) : R :=
  match m (to_ref e cX xi) (to_ref e cY eta) (to_ref e cZ sg) with
  | (u, v, w) => get (match i with cX => u | cY => v | cZ => w end) j * get (e_d e) j / 2
  end.

(* Jacobian 136-142 *)
Definition ct_Jacobian (J : mat3) : R :=
  match J with
  | ((j00, j01, j02), (j10, j11, j12), (j20, j21, j22)) =>
      j00 * j11 * j22 + j01 * j12 * j20 + j02 * j10 * j21
      - j00 * j12 * j21 - j01 * j10 * j22 - j02 * j11 * j20
  end.
(* metric 144-153 *)
Definition ct_metric (J : mat3) : R := ct_Jacobian J ^ 2.
(* inverse_Jacobian_matrix 155-176 *)
Definition ct_inverse_Jacobian_matrix (J : mat3) : mat3 :=
  match J with
  | ((j00, j01, j02), (j10, j11, j12), (j20, j21, j22)) =>
      let r := 1 / ct_Jacobian J in
      ((r * (j11 * j22 - j12 * j21), r * (j21 * j02 - j22 * j01), r * (j01 * j12 - j02 * j11)),
       (r * (j12 * j20 - j10 * j22), r * (j22 * j00 - j20 * j02), r * (j02 * j10 - j00 * j12)),
       (r * (j10 * j21 - j11 * j20), r * (j20 * j01 - j21 * j00), r * (j00 * j11 - j01 * j10)))
  end.
(* inverse_Jacobian 178-184: the same formula on iJ *)
Definition ct_inverse_Jacobian (iJ : mat3) : R := ct_Jacobian iJ.
(* metric_matrix 186-206: the upper triangle, then the mirror *)
Definition ct_metric_matrix (J : mat3) : mat3 :=
  match J with
  | ((j00, j01, j02), (j10, j11, j12), (j20, j21, j22)) =>
      let g00 := j00 * j00 + j10 * j10 + j20 * j20 in
      let g01 := j00 * j01 + j10 * j11 + j20 * j21 in
      let g02 := j00 * j02 + j10 * j12 + j20 * j22 in
      let g11 := j01 * j01 + j11 * j11 + j21 * j21 in
      let g12 := j01 * j02 + j11 * j12 + j21 * j22 in
      let g22 := j02 * j02 + j12 * j12 + j22 * j22 in
      ((g00, g01, g02), (g01, g11, g12), (g02, g12, g22))
  end.
(* inverse_metric_matrix 208-226 *)
Definition ct_inverse_metric_matrix (iJ : mat3) : mat3 :=
  match iJ with
  | ((a0, a1, a2), (b0, b1, b2), (c0, c1, c2)) =>
      let g00 := a0 * a0 + a1 * a1 + a2 * a2 in
      let g01 := a0 * b0 + a1 * b1 + a2 * b2 in
      let g02 := a0 * c0 + a1 * c1 + a2 * c2 in
      let g11 := b0 * b0 + b1 * b1 + b2 * b2 in
      let g12 := b0 * c0 + b1 * c1 + b2 * c2 in
      let g22 := c0 * c0 + c1 * c1 + c2 * c2 in
      ((g00, g01, g02), (g01, g11, g12), (g02, g12, g22))
  end.

(* do/find.py 48-54 on the ratios and spacings of SpacingModel, three axes *)
Definition q2r (x : Qc) : R := Q2R (this x).
Definition elem_at (ratios spacings : list (list Qc)) (idx : list nat) : option Elem :=
  match origin_size ratios spacings idx with
  | [(o0, d0); (o1, d1); (o2, d2)] =>
      Some (mkElem (q2r o0, q2r o1, q2r o2) (q2r d0, q2r d1, q2r d2))
  | _ => None
  end.

(* ---------- trace/elements ---------- *)
Inductive tside := tN | tS | tW | tE | tB | tF.
(* ___generate_full_ep___, trace/elements/main.py 319-333 *)
Definition full_ep (s : tside) (a b : R) : R * R * R :=
  match s with
  | tN => (-1, a, b) | tS => (1, a, b)
  | tW => (a, -1, b) | tE => (a, 1, b)
  | tB => (a, b, -1) | tF => (a, b, 1)
  end.

(* trace/elements/element/coordinate_transformation/main.py *)
Definition mat32 := ((R * R) * (R * R) * (R * R))%type.
Definition mat23 := ((R * R * R) * (R * R * R))%type.
Definition mat22 := ((R * R) * (R * R))%type.
(* mapping 24-89, of the given element and side *)
Definition tr_mapping (f : coord -> R -> R -> R -> R) (e : Elem) (s : tside) (c : coord) (a b : R) : R :=
  match full_ep s a b with (x, y, z) => ct_mapping f e c x y z end.
(* Jacobian_matrix 91-114; J is that of the element at the full point *)
Definition tr_Jacobian_matrix (J : mat3) (s : tside) : mat32 :=
  match J with
  | ((j00, j01, j02), (j10, j11, j12), (j20, j21, j22)) =>
      match s with
      | tN | tS => ((j01, j02), (j11, j12), (j21, j22))
      | tW | tE => ((j02, j00), (j12, j10), (j22, j20))
      | tB | tF => ((j00, j01), (j10, j11), (j20, j21))
      end
  end.
(* inverse_Jacobian_matrix 116-134 *)
Definition tr_inverse_Jacobian_matrix (iJ : mat3) (s : tside) : mat23 :=
  match iJ with
  | (r0, r1, r2) =>
      match s with tN | tS => (r1, r2) | tW | tE => (r2, r0) | tB | tF => (r0, r1) end
  end.
(* metric_matrix 136-148 *)
Definition tr_metric_matrix (J : mat32) : mat22 :=
  match J with
  | ((a0, b0), (a1, b1), (a2, b2)) =>
      let g00 := a0 * a0 + a1 * a1 + a2 * a2 in
      let g01 := a0 * b0 + a1 * b1 + a2 * b2 in
      let g11 := b0 * b0 + b1 * b1 + b2 * b2 in
      ((g00, g01), (g01, g11))
  end.
(* inverse_metric_matrix 150-161 *)
Definition tr_inverse_metric_matrix (iJ : mat23) : mat22 :=
  match iJ with
  | ((a0, a1, a2), (b0, b1, b2)) =>
      let g00 := a0 * a0 + a1 * a1 + a2 * a2 in
      let g01 := a0 * b0 + a1 * b1 + a2 * b2 in
      let g11 := b0 * b0 + b1 * b1 + b2 * b2 in
      ((g00, g01), (g01, g11))
  end.
(* metric 164-168 *)
Definition tr_metric (J : mat32) : R :=
  match tr_metric_matrix J with ((g00, g01), (g10, g11)) => g00 * g11 - g01 * g10 end.
(* unit_normal_vector 239-263 *)
Definition unit_normal (J : mat32) : R * R * R :=
  match J with
  | ((a0, b0), (a1, b1), (a2, b2)) =>
      let acb0 := a1 * b2 - a2 * b1 in
      let acb1 := a2 * b0 - a0 * b2 in
      let acb2 := a0 * b1 - a1 * b0 in
      let norm := sqrt (acb0 ^ 2 + acb1 ^ 2 + acb2 ^ 2) in
      (acb0 / norm, acb1 / norm, acb2 / norm)
  end.
(* ___PRIVATE_outward_unit_normal_vector___ 170-237: J of the characteristic
   element; s is the side of the element asked for *)
Definition outward_normal (J : mat32) (s : tside) : R * R * R :=
  match unit_normal J with
  | (x, y, z) => match s with tN | tW | tB => (- x, - y, - z) | _ => (x, y, z) end
  end.

(* ---------- forms/trace/_1tr/main.py ---------- *)
(* reconstruct 131-162 at one point: v0, v1 are the sums of basis functions in
   the order of the evaluation points *)
Definition tr1_reconstruct (iJ : mat23) (s : tside) (v0 v1 : R) : R * R * R :=
  match iJ with
  | ((a0, a1, a2), (b0, b1, b2)) =>
      match s with
      | tW | tE => (v0 * b0 + v1 * a0, v0 * b1 + v1 * a1, v0 * b2 + v1 * a2)
      | _ => (v0 * a0 + v1 * b0, v0 * a1 + v1 * b1, v0 * a2 + v1 * b2)
      end
  end.
(* ___PRIVATE_generate_TEW_mass_matrices___ 211-247: the weights of M00, M01
   and M11 at one point, without the quadrature weight; orth: the mark starts
   with 'Orth.' *)
Definition tr1_weights (J : mat32) (iJ : mat23) (s : tside) (orth : bool) : R * R * R :=
  match tr_inverse_metric_matrix iJ with
  | ((g00, g01), (g10, g11)) =>
      let sg := sqrt (tr_metric J) in
      match s with
      | tW | tE => (sg * g11, if orth then 0 else sg * g10, sg * g00)
      | _ => (sg * g00, if orth then 0 else sg * g01, sg * g11)
      end
  end.
(* the same at a point (a, b) of a trace element whose CHARACTERISTIC_element
   is e, at its side s.  trace/elements/main.py 228-260: on the core of the
   element with the smaller number that is its position, on another core the
   position of the other element *)
Definition side_value (m : R -> R -> R -> mat3) (e : Elem) (s : tside) (a b v0 v1 : R) : R * R * R :=
  match full_ep s a b with
  | (x, y, z) => tr1_reconstruct
      (tr_inverse_Jacobian_matrix (ct_inverse_Jacobian_matrix (ct_Jacobian_matrix m false e x y z)) s) s v0 v1
  end.
Definition side_weights (m : R -> R -> R -> mat3) (e : Elem) (s : tside) (a b : R) : R * R * R :=
  match full_ep s a b with
  | (x, y, z) =>
      let J := ct_Jacobian_matrix m false e x y z in
      tr1_weights (tr_Jacobian_matrix J s) (tr_inverse_Jacobian_matrix (ct_inverse_Jacobian_matrix J) s) s false
  end.
