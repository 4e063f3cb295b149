(** Model of the element sizes of a region in its reference cube: _3d/mesh/main.py ___PRIVATE_parse_element_layout_each_region___
    (lines 139-195), do/find.py:49-66. Exact rational numbers instead of floats. *)
From Coq Require Import List Arith QArith Qcanon.
From Verif Require Import Prelude.
Import ListNotations.
Local Open Scope nat_scope.

(** an entry of element_layout: a number of elements, or the (relative) sizes of the elements *)
Inductive axis := Num (n : nat) | Sizes (l : list Qc).
Definition qsum (l : list Qc) : Qc := fold_right Qcplus (Q2Qc 0) l.
Definition qpos (x : Qc) : bool := match Qccompare (Q2Qc 0) x with Lt => true | _ => false end.
(** lines 173-181; None: an assertion or np.min of an empty list *)
Definition axis_ratio (a : axis) : option (list Qc) :=
  match a with
  | Num n => if 1 <=? n then Some (repeat (Qcdiv (Q2Qc 1) (Q2Qc (inject_Z (Z.of_nat n)))) n) else None
  | Sizes [] => None
  | Sizes l => if forallb qpos l then Some (map (fun x => Qcdiv x (qsum l)) l) else None
  end.
(** lines 185-188: zeros, the last 1, then the inner ones *)
Definition axis_spacing (ratio : list Qc) : list Qc :=
  map (fun j => if j =? length ratio then Q2Qc 1 else if j =? 0 then Q2Qc 0 else qsum (firstn j ratio)) (seq 0 (length ratio + 1)).
(** _element_layout_, _element_ratio_, _element_spacing_ of a region *)
Fixpoint parse_layout (axes : list axis) : option (list nat * list (list Qc) * list (list Qc)) :=
  match axes with
  | [] => Some ([], [], [])
  | a :: axes' =>
      match axis_ratio a, parse_layout axes' with
      | Some r, Some (lay, rs, ss) => Some (length r :: lay, r :: rs, axis_spacing r :: ss)
      | _, _ => None
      end
  end.
(** reference_origin_and_size_of_element_of_given_local_indices (do/find.py:49-55) *)
Definition origin_size (ratios spacings : list (list Qc)) (idx : list nat) : list (Qc * Qc) :=
  map (fun rsi => (nth (snd rsi) (snd (fst rsi)) (Q2Qc 0), nth (snd rsi) (fst (fst rsi)) (Q2Qc 0))) (combine (combine ratios spacings) idx).
