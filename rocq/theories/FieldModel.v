(** Scalar and vector functions of time and space and their numerical
    derivatives: components/numerical/timePlus{2,3}dSpace/
    partial_derivative.py and partial_derivative_as_functions.py, and the
    wrappers components/functions/timePlus{2,3}dSpace/wrappers/{scalar,
    vector}.py with their helpers. Numbers are reals. A python callable is
    its kind (plain function, bound method, anything else with [__call__]),
    its argument count and its value; an evaluation on arrays is elementwise
    and is modelled at one point. The step is the default 1e-6 of every
    caller, [n] and [order] are the defaults 1 and 3. *)
From Coq Require Import Reals List.
Import ListNotations.
Open Scope R_scope.

(** Exceptions. *)
Inductive error := NotImplementedError | AssertionError.
Inductive outcome (A : Type) := Done (a : A) | Raised (e : error).
Arguments Done {A} a.
Arguments Raised {A} e.

Definition andthen {A B : Type} (o : outcome A) (f : A -> outcome B)
  : outcome B :=
  match o with Done a => f a | Raised e => Raised e end.

(** [types.FunctionType], [types.MethodType], and the other callables (the
    helper classes, [functools.partial], ...). *)
Inductive kind := Function | Method | Instance.

Inductive axis := AT | AX | AY | AZ.

(** scipy.misc.derivative with n=1, order=3: the weights are
    [array([-1, 0, 1])/2], [val += weights[k]*func(x0+(k-ho)*dx)] with
    [ho = 3 >> 1 = 1], and the result is [val / dx]. *)
Definition weights : list R := [-1 / 2; 0 / 2; 1 / 2].

Definition derivative (f : R -> R) (x0 dx : R) : R :=
  fold_left
    (fun val k => val + nth k weights 0 * f (x0 + (INR k - INR 1) * dx))
    (seq 0 3) 0 / dx.

(** partial_derivative.py line 18: [dtdxdydz=1e-6]. *)
Definition step : R := / 1000000.

(** *** Time plus three dimensions *)

Definition field3 := R -> R -> R -> R -> R.

Record callable3 := mk3 { kind3 : kind; args3 : nat; call3 : field3 }.

(** timePlus3dSpace/partial_derivative.py lines 64-97 (scipy_partial). *)
Definition scipy_partial3 (f : field3) (a : axis) : field3 :=
  fun t x y z =>
    match a with
    | AT => derivative (fun s => f s x y z) t step
    | AX => derivative (fun s => f t s y z) x step
    | AY => derivative (fun s => f t x s z) y step
    | AZ => derivative (fun s => f t x y s) z step
    end.

(** timePlus3dSpace/partial_derivative_as_functions.py lines 17-45: the
    constructor checks the callable; [__call__] gives bound methods with five
    arguments (lines 48-74). *)
Definition numeric3 (c : callable3) : outcome (axis -> callable3) :=
  match kind3 c with
  | Function =>
      if Nat.eqb (args3 c) 4
      then Done (fun a => mk3 Method 5 (scipy_partial3 (call3 c) a))
      else Raised AssertionError
  | Method =>
      if Nat.eqb (args3 c) 5
      then Done (fun a => mk3 Method 5 (scipy_partial3 (call3 c) a))
      else Raised AssertionError
  | Instance => Raised NotImplementedError
  end.

(** timePlus3dSpace/wrappers/helpers: scalar_add.py, scalar_sub.py,
    scalar_neg.py, scalar_mul.py, _3scalars_add.py: instances of classes with
    a [__call__] of five arguments. *)
Definition instance3 (f : field3) : callable3 := mk3 Instance 5 f.

Definition add3 (a b : callable3) : callable3 :=
  instance3 (fun t x y z => call3 a t x y z + call3 b t x y z).
Definition sub3 (a b : callable3) : callable3 :=
  instance3 (fun t x y z => call3 a t x y z - call3 b t x y z).
Definition neg3 (a : callable3) : callable3 :=
  instance3 (fun t x y z => - call3 a t x y z).
Definition mul3 (a b : callable3) : callable3 :=
  instance3 (fun t x y z => call3 a t x y z * call3 b t x y z).
Definition sum3 (a b c : callable3) : callable3 :=
  instance3
    (fun t x y z => call3 a t x y z + call3 b t x y z + call3 c t x y z).

(** timePlus3dSpace/wrappers/scalar.py lines 30-37: a t3dScalar is its
    function; vector.py lines 31-51. *)
Definition scalar3 := callable3.
Record vector3 := vec3 { v0 : callable3; v1 : callable3; v2 : callable3 }.

(** scalar.py lines 69-72. *)
Definition stime3 (s : scalar3) : outcome scalar3 :=
  andthen (numeric3 s) (fun d => Done (d AT)).

(** scalar.py lines 74-85. *)
Definition gradient3 (s : scalar3) : outcome vector3 :=
  andthen (numeric3 s) (fun d => Done (vec3 (d AX) (d AY) (d AZ))).

(** scalar.py lines 87-110. *)
Definition sconvection3 (s : scalar3) (u : vector3) : outcome scalar3 :=
  andthen (numeric3 s) (fun d =>
  Done (sum3 (mul3 (v0 u) (d AX)) (mul3 (v1 u) (d AY))
             (mul3 (v2 u) (d AZ)))).

(** scalar.py lines 112-148. *)
Definition sadd3 (a b : scalar3) : scalar3 := add3 a b.
Definition ssub3 (a b : scalar3) : scalar3 := sub3 a b.
Definition sneg3 (a : scalar3) : scalar3 := neg3 a.
Definition smul3 (a b : scalar3) : scalar3 := mul3 a b.

(** vector.py lines 98-103. *)
Definition vtime3 (v : vector3) : outcome vector3 :=
  andthen (numeric3 (v0 v)) (fun d0 =>
  andthen (numeric3 (v1 v)) (fun d1 =>
  andthen (numeric3 (v2 v)) (fun d2 =>
  Done (vec3 (d0 AT) (d1 AT) (d2 AT))))).

(** vector.py lines 105-116. *)
Definition divergence3 (v : vector3) : outcome scalar3 :=
  andthen (numeric3 (v0 v)) (fun d0 =>
  andthen (numeric3 (v1 v)) (fun d1 =>
  andthen (numeric3 (v2 v)) (fun d2 =>
  Done (sum3 (d0 AX) (d1 AY) (d2 AZ))))).

(** vector.py lines 118-139. *)
Definition curl3 (v : vector3) : outcome vector3 :=
  andthen (numeric3 (v2 v)) (fun d2 =>
  andthen (numeric3 (v0 v)) (fun d0 =>
  andthen (numeric3 (v1 v)) (fun d1 =>
  let pw_py := d2 AY in
  let pw_px := d2 AX in
  let pu_pz := d0 AZ in
  let pu_py := d0 AY in
  let pv_px := d1 AX in
  let pv_pz := d1 AZ in
  Done (vec3 (sub3 pw_py pv_pz) (sub3 pu_pz pw_px) (sub3 pv_px pu_py))))).

(** vector.py lines 141-178. *)
Definition vconvection3 (v u : vector3) : outcome vector3 :=
  andthen (numeric3 (v0 v)) (fun d0 =>
  andthen (numeric3 (v1 v)) (fun d1 =>
  andthen (numeric3 (v2 v)) (fun d2 =>
  let along d := sum3 (mul3 (v0 u) (d AX)) (mul3 (v1 u) (d AY))
                      (mul3 (v2 u) (d AZ)) in
  Done (vec3 (along d0) (along d1) (along d2))))).

(** vector.py lines 180-237. *)
Definition vadd3 (a b : vector3) : vector3 :=
  vec3 (add3 (v0 a) (v0 b)) (add3 (v1 a) (v1 b)) (add3 (v2 a) (v2 b)).
Definition vsub3 (a b : vector3) : vector3 :=
  vec3 (sub3 (v0 a) (v0 b)) (sub3 (v1 a) (v1 b)) (sub3 (v2 a) (v2 b)).
Definition vneg3 (a : vector3) : vector3 :=
  vec3 (neg3 (v0 a)) (neg3 (v1 a)) (neg3 (v2 a)).

(** vector.py lines 239-266. *)
Definition dot3 (a b : vector3) : scalar3 :=
  sum3 (mul3 (v0 a) (v0 b)) (mul3 (v1 a) (v1 b)) (mul3 (v2 a) (v2 b)).

(** vector.py lines 269-289. *)
Definition cross3 (s o : vector3) : vector3 :=
  let a := v0 s in let b := v1 s in let c := v2 s in
  let u := v0 o in let v := v1 o in let w := v2 o in
  vsub3 (vec3 (mul3 b w) (mul3 c u) (mul3 a v))
        (vec3 (mul3 c v) (mul3 a w) (mul3 b u)).

(** *** Time plus two dimensions *)

Definition field2 := R -> R -> R -> R.

Record callable2 := mk2 { kind2 : kind; args2 : nat; call2 : field2 }.

(** The axes accepted by timePlus2dSpace are 't', 'x' and 'y'; 'z' raises a
    plain Exception and no wrapper asks for it. *)
Inductive axis2 := BT | BX | BY.

(** timePlus2dSpace/partial_derivative.py (scipy_partial). *)
Definition scipy_partial2 (f : field2) (a : axis2) : field2 :=
  fun t x y =>
    match a with
    | BT => derivative (fun s => f s x y) t step
    | BX => derivative (fun s => f t s y) x step
    | BY => derivative (fun s => f t x s) y step
    end.

(** timePlus2dSpace/partial_derivative_as_functions.py lines 18-68: here
    every other callable is accepted too (line 30). *)
Definition numeric2 (c : callable2) : outcome (axis2 -> callable2) :=
  match kind2 c with
  | Function =>
      if Nat.eqb (args2 c) 3
      then Done (fun a => mk2 Method 4 (scipy_partial2 (call2 c) a))
      else Raised AssertionError
  | Method =>
      if Nat.eqb (args2 c) 4
      then Done (fun a => mk2 Method 4 (scipy_partial2 (call2 c) a))
      else Raised AssertionError
  | Instance => Done (fun a => mk2 Method 4 (scipy_partial2 (call2 c) a))
  end.

(** timePlus2dSpace/wrappers/helpers. *)
Definition instance2 (f : field2) : callable2 := mk2 Instance 4 f.

Definition add2 (a b : callable2) : callable2 :=
  instance2 (fun t x y => call2 a t x y + call2 b t x y).
Definition sub2 (a b : callable2) : callable2 :=
  instance2 (fun t x y => call2 a t x y - call2 b t x y).
Definition neg2 (a : callable2) : callable2 :=
  instance2 (fun t x y => - call2 a t x y).
Definition mul2 (a b : callable2) : callable2 :=
  instance2 (fun t x y => call2 a t x y * call2 b t x y).

(** timePlus2dSpace/wrappers/scalar.py lines 31-38 and vector.py lines
    27-44. *)
Definition scalar2 := callable2.
Record vector2 := vec2 { w0 : callable2; w1 : callable2 }.

(** A t2dScalar is itself a callable instance (scalar.py lines 37-38). *)
Definition wrapped2 (s : scalar2) : callable2 := instance2 (call2 s).

(** scalar.py lines 77-81. *)
Definition stime2 (s : scalar2) : outcome scalar2 :=
  andthen (numeric2 s) (fun d => Done (d BT)).

(** scalar.py lines 84-94. *)
Definition gradient2 (s : scalar2) : outcome vector2 :=
  andthen (numeric2 s) (fun d => Done (vec2 (d BX) (d BY))).

(** scalar.py lines 97-108: the second component is the t2dScalar
    [- t2dScalar(px)]. *)
Definition curl2 (s : scalar2) : outcome vector2 :=
  andthen (numeric2 s) (fun d =>
  Done (vec2 (d BY) (wrapped2 (neg2 (d BX))))).

(** scalar.py lines 110-131. *)
Definition sconvection2 (s : scalar2) (u : vector2) : outcome scalar2 :=
  andthen (numeric2 s) (fun d =>
  Done (add2 (mul2 (w0 u) (d BX)) (mul2 (w1 u) (d BY)))).

(** vector.py lines 90-94. *)
Definition vtime2 (v : vector2) : outcome vector2 :=
  andthen (numeric2 (w0 v)) (fun d0 =>
  andthen (numeric2 (w1 v)) (fun d1 =>
  Done (vec2 (d0 BT) (d1 BT)))).

(** vector.py lines 96-104. *)
Definition divergence2 (v : vector2) : outcome scalar2 :=
  andthen (numeric2 (w0 v)) (fun d0 =>
  andthen (numeric2 (w1 v)) (fun d1 =>
  Done (add2 (d0 BX) (d1 BY)))).

(** vector.py lines 106-120. *)
Definition rot2 (v : vector2) : outcome scalar2 :=
  andthen (numeric2 (w1 v)) (fun d1 =>
  andthen (numeric2 (w0 v)) (fun d0 =>
  Done (sub2 (d1 BX) (d0 BY)))).

(** vector.py lines 122-147. *)
Definition vconvection2 (v u : vector2) : outcome vector2 :=
  andthen (numeric2 (w0 v)) (fun d0 =>
  andthen (numeric2 (w1 v)) (fun d1 =>
  let along d := add2 (mul2 (w0 u) (d BX)) (mul2 (w1 u) (d BY)) in
  Done (vec2 (along d0) (along d1)))).

(** vector.py lines 150-205. *)
Definition vadd2 (a b : vector2) : vector2 :=
  vec2 (add2 (w0 a) (w0 b)) (add2 (w1 a) (w1 b)).
Definition vsub2 (a b : vector2) : vector2 :=
  vec2 (sub2 (w0 a) (w0 b)) (sub2 (w1 a) (w1 b)).
Definition vneg2 (a : vector2) : vector2 :=
  vec2 (neg2 (w0 a)) (neg2 (w1 a)).

(** vector.py lines 207-233. *)
Definition dot2 (a b : vector2) : scalar2 :=
  add2 (mul2 (w0 a) (w0 b)) (mul2 (w1 a) (w1 b)).

(** *** Checks of a derivative against a formula
    timePlus3dSpace/partial_derivative.py lines 109-160: [check_partial_t],
    [check_partial_x], [check_partial_y] and [check_partial_z] on a non-empty
    list of points given by the lists of values [func_p] and [self_p]; the
    tolerance is the default 1e-5. The relative error is taken against
    [self_p], except in [check_partial_z] where it is taken against [func_p]
    (line 155). A division by zero gives inf or nan and the comparison of the
    maximum with the tolerance is then false. *)
Definition tolerance : R := / 100000.

Definition rlt (a b : R) : bool :=
  if Rlt_dec a b then true else false.

Definition close_abs (p : R * R) : bool :=
  rlt (Rabs (fst p - snd p)) tolerance.

Definition close_rel (against : R * R -> R) (p : R * R) : bool :=
  if Req_EM_T (against p) 0 then false
  else rlt (Rabs ((fst p - snd p) / against p)) tolerance.

Definition check_partial (a : axis) (func_p self_p : list R) : bool :=
  if forallb close_abs (combine func_p self_p) then true
  else
    let against := match a with AZ => @fst R R | _ => @snd R R end in
    forallb (close_rel against) (combine func_p self_p).
