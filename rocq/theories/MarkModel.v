(* Metric types of elements and trace elements and the caches keyed by them.
   Lengths are real numbers; strings like 'Orth.xy%.4fz%.4f' are constructors
   with the printed digits as integers (the prefixes are different, so strings
   are equal exactly if these are).  fmt k x is the integer printed, without
   the point, by '%.kf' % x and by round(x, k); doubles are not modelled. *)
From Coq Require Import Reals List ZArith Bool Arith.
From Verif Require Import TfiModel CtModel.
Import ListNotations.
Open Scope R_scope.

Definition fmt_t := nat -> R -> Z.
(* round(x, k) *)
Definition rnd (fmt : fmt_t) (k : nat) (x : R) : R := IZR (fmt k x) / 10 ^ k.

Inductive mark :=
| mId (i : nat)                      (* chaotic.py: id of the object *)
| mCube (n : Z) | mXY (n m : Z) | mXZ (n m : Z) | mYZ (n m : Z) | mXYZ (n m l : Z)
| mSquare (n : Z) | mRect (n m : Z)
| mSide (c : coord) (n m : Z).

(* _3d/mesh/elements/element/types_wrt_metric/orthogonal.py 10-30 *)
Definition orth_mark (fmt : fmt_t) (l : R * R * R) : mark :=
  match l with
  | (x, y, z) =>
      let x := rnd fmt 6 x in let y := rnd fmt 6 y in let z := rnd fmt 6 z in
      if Req_EM_T x y then
        if Req_EM_T y z then mCube (fmt 3%nat x) else mXY (fmt 4%nat x) (fmt 4%nat z)
      else if Req_EM_T x z then mXZ (fmt 4%nat x) (fmt 4%nat y)
      else if Req_EM_T y z then mYZ (fmt 4%nat y) (fmt 4%nat x)
      else mXYZ (fmt 3%nat x) (fmt 3%nat y) (fmt 3%nat z)
  end.
(* _2d/mesh/elements/element/types_wrt_metric/orthogonal.py 14-25 *)
Definition orth_mark2 (fmt : fmt_t) (l : R * R) : mark :=
  match l with
  | (x, y) =>
      let x := rnd fmt 5 x in let y := rnd fmt 5 y in
      if Req_EM_T x y then mSquare (fmt 4%nat x) else mRect (fmt 4%nat x) (fmt 4%nat y)
  end.
(* _3d/mesh/trace/elements/element/types_wrt_metric/orthogonal.py 18-32 *)
Definition side_mark (fmt : fmt_t) (c : coord) (d1 d2 : R) : mark :=
  mSide c (fmt 5%nat (rnd fmt 6 d1)) (fmt 5%nat (rnd fmt 6 d2)).

(* region/types_wrt_metric: chaotic.py, crazy.py with c <> 0 and transfinite.py
   with curved sides are rChaotic; crazy.py with c = 0, orthogonal.py and
   transfinite.py with six planes and the corners of a box are rOrth of _Lxyz_
   (Typ3Model; six planes with other corners raise) *)
Inductive rtype := rChaotic | rOrth (l : R * R * R).
(* ___CLASSIFY_ELEMENT_of_spacing___, crazy.py 35-43, orthogonal.py 58-66,
   transfinite.py 86-102; i stands for the id; spacing[i][1] - spacing[i][0] is
   the size of the element *)
Definition lengths (l d : R * R * R) : R * R * R :=
  match l, d with (lx, ly, lz), (dx, dy, dz) => (dx * lx, dy * ly, dz * lz) end.
Definition elem_mark (fmt : fmt_t) (t : rtype) (i : nat) (e : Elem) : mark :=
  match t with rChaotic => mId i | rOrth l => orth_mark fmt (lengths l (e_d e)) end.
(* ___CLASSIFY_TRACE_ELEMENT_of_spacing___, crazy.py 46-74, orthogonal.py 68-91;
   trace/elements/element/main.py spacing 131-150 *)
Definition trace_mark (fmt : fmt_t) (t : rtype) (i : nat) (e : Elem) (s : tside) : mark :=
  match t with
  | rChaotic => mId i
  | rOrth _ =>
      match e_d e with
      | (dx, dy, dz) =>
          match s with
          | tN | tS => side_mark fmt cX dy dz
          | tW | tE => side_mark fmt cY dz dx
          | tB | tF => side_mark fmt cZ dx dy
          end
      end
  end.
(* the Jacobian matrix of an orthogonal region, interpolations/orthogonal.py *)
Definition box_J (l : R * R * R) (_ _ _ : R) : mat3 :=
  match l with (lx, ly, lz) => ((lx, 0, 0), (0, ly, 0), (0, 0, lz)) end.

(* Jacobian_matrix of a trace element of such a region, trace/elements/element/
   coordinate_transformation/main.py 91-114 *)
Definition side_J (l : R * R * R) (e : Elem) (s : tside) (a b : R) : mat32 :=
  match full_ep s a b with (x, y, z) => tr_Jacobian_matrix (ct_Jacobian_matrix (box_J l) true e x y z) s end.

(* trace/elements/element/coordinate_transformation/constant.py 60-88: the
   two numbers are read back from the mark *)
Definition constant_Jacobian (m : mark) : option R :=
  match m with
  | mSide _ n k => Some (IZR n / 10 ^ 5 * (IZR k / 10 ^ 5) / 4)
  | _ => None
  end.
(* _2d/mesh/trace/elements/element/coordinate_transformation/constant.py 20-52;
   m is the mark of the characteristic element, ud: its edge is U or D *)
Definition constant_Jacobian2 (m : mark) (ud : bool) : option R :=
  match m with
  | mSquare n => Some (IZR n / 10 ^ 4 / 2)
  | mRect n k => Some (IZR (if ud then k else n) / 10 ^ 4 / 2)
  | _ => None
  end.

(* ---------- caches ---------- *)
Section Cache.
Variable V : Type.
Variable mk : nat -> mark.              (* the mark of a local element *)
Variable val : nat -> V.                (* the value computed for an element *)

Definition mark_dec (a b : mark) : {a = b} + {a <> b}.
Proof. decide equality; try apply Z.eq_dec; try apply Nat.eq_dec; decide equality. Defined.
Definition is_id (m : mark) : bool := match m with mId _ => true | _ => false end.
Fixpoint find_mark (m : mark) (c : list (mark * V)) : option V :=
  match c with
  | [] => None
  | (k, v) :: c' => if mark_dec k m then Some v else find_mark m c'
  end.
(* ___PRIVATE_parse_elements_type_wrt_metric___ (elements/main.py 34-53) keeps
   the marks of two or more elements with their number, trace/elements/main.py
   171-189 those of all that are not ids: in both an entry of at least
   CACHE_FACTOR = 2 is kept exactly for marks of two or more elements *)
Definition multi (elems : list nat) (m : mark) : bool :=
  2 <=? length (filter (fun i => if mark_dec (mk i) m then true else false) elems).
(* ElementsCTValuesCache.__getitem__ (value_cache.py 39-79) for Jacobian
   matrices and what is computed from them, TraceElementsCTValuesCache
   .__getitem__ (trace .../value_cache.py 19-60): the value, the new cache *)
Definition cache_get (elems : list nat) (c : list (mark * V)) (i : nat) : V * list (mark * V) :=
  if is_id (mk i) then (val i, c)
  else match find_mark (mk i) c with
       | Some v => (v, c)
       | None => (val i, if multi elems (mk i) then (mk i, val i) :: c else c)
       end.
(* a sequence of accesses *)
Fixpoint cache_run (elems : list nat) (c : list (mark * V)) (req : list nat) : list V :=
  match req with
  | [] => []
  | i :: req' => let (v, c') := cache_get elems c i in v :: cache_run elems c' req'
  end.
End Cache.
