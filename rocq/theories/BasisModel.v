(** Model of the 1d basis functions: objects/CSCG/base/spaces/_1d_basis/polynomials.py, lines 58-112 and 114-190, in exact arithmetic: an
    ordered field instead of floats. The entries of the arrays are functions of their indices; the columns for the different points x do not
    depend on each other, so there is one x. The caches (lines 98-100, 116-118) are in MiscModel (C54). *)
From mathcomp Require Import all_ssreflect all_algebra.
Set Implicit Arguments.
Unset Strict Implicit.
Unset Printing Implicit Defensive.
Import GRing.Theory Num.Theory.
Local Open Scope ring_scope.

Section Basis.
Variable F : realFieldType.
Implicit Types (xs : seq F) (x : F).

(** the assertion of lines 60-61; None: it fails *)
Definition np_diff xs : seq F := [seq yx.1 - yx.2 | yx <- zip (behead xs) xs].
Definition np_max xs : option F := if xs is y :: ys then Some (foldl Num.max y ys) else None.
Definition np_min xs : option F := if xs is y :: ys then Some (foldl Num.min y ys) else None.
Definition poly1d xs : option (seq F) :=
  if [&& all (fun d => 0 < d) (np_diff xs), np_max xs == Some 1 & np_min xs == Some (-1)] then Some xs else None.

Definition node xs (i : nat) : F := nth 0 xs i.
(** lines 101-108: basis[i] starts with ones and is multiplied for each j != i *)
Definition lagrange xs (i : nat) x : F :=
  foldl (fun b j => if i != j then b * ((x - node xs j) / (node xs i - node xs j)) else b) 1 (iota 0 (size xs)).

(** __derivative_poly_nodes__, lines 170-185 *)
Definition xi_xj xs (k j : nat) : F := if k == j then 1 else node xs k - node xs j.
Definition c_i xs (k : nat) : F := foldl (fun c j => c * xi_xj xs k j) 1 (iota 0 (size xs)).
Definition off_diagonal xs (k j : nat) : F := if k == j then 0 else c_i xs k / c_i xs j / xi_xj xs k j.
Definition np_sum (f : nat -> F) (n : nat) : F := foldl (fun s j => s + f j) 0 (iota 0 n).
Definition nodal_derivative xs (k j : nat) : F :=
  if k == j then - np_sum (off_diagonal xs k) (size xs) else off_diagonal xs k j.
(** _derivative_poly_, lines 187-191: transpose(nodal_derivative) @ polynomials *)
Definition derivative_poly xs (j : nat) x : F := np_sum (fun k => nodal_derivative xs k j * lagrange xs k x) (size xs).
(** edge_basis, lines 120-125 *)
Definition edge xs (i : nat) x : F := foldl (fun e j => e - derivative_poly xs j x) 0 (iota 0 i.+1).
End Basis.
