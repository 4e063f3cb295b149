(* Areas, angles and quality of triangular elements, objects/miUsGrid/
   triangular/mesh/elements/element/main.py, mesh/domain/main.py and
   components/functions/_2dSpace.  Floats are reals; None stands for nan or an
   exception (a division by zero, a root or an arc cosine out of range). *)
From Coq Require Import List Arith Reals.
From Verif Require Import TriModel.
Import ListNotations.
Local Open Scope R_scope.

(* components/functions/_2dSpace/distance.py:5-7 *)
Definition distance (p1 p2 : point) : R := sqrt ((fst p1 - fst p2) ^ 2 + (snd p1 - snd p2) ^ 2).
(* x ** 0.5, x / y, math.acos *)
Definition root (x : R) : option R := if Rle_dec 0 x then Some (sqrt x) else None.
Definition divide (x y : R) : option R := if Req_EM_T y 0 then None else Some (x / y).
Definition arccos (x : R) : option R := if Rle_dec (-1) x then if Rle_dec x 1 then Some (acos x) else None else None.
(* element/main.py:60-69 *)
Definition edge_lengths (p0 p1 p2 : point) : R * R * R := (distance p0 p1, distance p0 p2, distance p2 p1).
(* element/main.py:71-76 *)
Definition tri_area (p0 p1 p2 : point) : option R :=
  match edge_lengths p0 p1 p2 with
  | (a, b, c) => let s := (a + b + c) / 2 in root (s * (s - a) * (s - b) * (s - c))
  end.
(* components/functions/_2dSpace/angles_of_triangle.py:11-33 *)
Definition obind {A B} (x : option A) (f : A -> option B) : option B := match x with Some a => f a | None => None end.
Definition angle_cos (x y : R) : option R := obind (divide x y) arccos.
Definition degrees (x : R) : R := x * 180 / PI.
Definition angles_of_triangle (A B C : point) : option (R * R * R) :=
  let a := distance B C in let b := distance A C in let c := distance A B in
  let a2 := a ^ 2 in let b2 := b ^ 2 in let c2 := c ^ 2 in
  obind (angle_cos (b2 + c2 - a2) (2 * b * c)) (fun alpha =>
  obind (angle_cos (a2 + c2 - b2) (2 * a * c)) (fun beta =>
  obind (angle_cos (a2 + b2 - c2) (2 * a * b)) (fun gamma =>
  Some (degrees alpha, degrees beta, degrees gamma)))).
(* element/main.py:104-113 *)
Definition quality (A B C : point) : option R :=
  obind (angles_of_triangle A B C) (fun abc =>
  match abc with
  | (a, b, c) => let diff := Rabs (a - 60) + (Rabs (b - 60) + (Rabs (c - 60) + 0)) in Some (Rabs (1 - diff / 240))
  end).
(* element/main.py:50-58: coordinates of the vertexes *)
Definition cell_area (pts : list point) (t : tri) : option R :=
  match t with (a, b, c) => tri_area (nth a pts (0, 0)) (nth b pts (0, 0)) (nth c pts (0, 0)) end.
(* domain/main.py:23-32: the elements of each core, then the sum of the cores *)
Definition core_area (pts : list point) (cells : list tri) (es : list nat) : option R :=
  fold_left (fun s e => obind s (fun s => obind (cell_area pts (nth e cells (0, 0, 0)%nat)) (fun x => Some (s + x)))) es (Some 0).
Definition domain_area (pts : list point) (cells : list tri) (cores : list (list nat)) : option R :=
  fold_left (fun s es => obind s (fun s => obind (core_area pts cells es) (fun x => Some (s + x)))) cores (Some 0).
