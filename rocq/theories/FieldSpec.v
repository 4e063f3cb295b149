(** What a difference quotient, a derivative and the vector operators are,
    independently of the model. *)
From Coq Require Import Reals List.
From Verif Require Import FieldModel.
Open Scope R_scope.

(** The central difference. *)
Definition central (f : R -> R) (x h : R) : R :=
  (f (x + h) - f (x - h)) / (2 * h).

Definition millionth : R := 1 / 1000000.

(** The function of one variable through a point. *)
Definition line3 (a : axis) (f : field3) (t x y z : R) : R -> R :=
  match a with
  | AT => fun s => f s x y z
  | AX => fun s => f t s y z
  | AY => fun s => f t x s z
  | AZ => fun s => f t x y s
  end.

Definition coordinate3 (a : axis) (t x y z : R) : R :=
  match a with AT => t | AX => x | AY => y | AZ => z end.

(** [g] is the partial derivative of [f]. *)
Definition is_partial3 (a : axis) (f g : field3) : Prop :=
  forall t x y z,
  derivable_pt_lim (line3 a f t x y z) (coordinate3 a t x y z) (g t x y z).

(** The numerical partial derivative. *)
Definition diff3 (a : axis) (f : field3) : field3 :=
  fun t x y z =>
  central (line3 a f t x y z) (coordinate3 a t x y z) millionth.

Definition line2 (a : axis2) (f : field2) (t x y : R) : R -> R :=
  match a with
  | BT => fun s => f s x y
  | BX => fun s => f t s y
  | BY => fun s => f t x s
  end.

Definition coordinate2 (a : axis2) (t x y : R) : R :=
  match a with BT => t | BX => x | BY => y end.

Definition is_partial2 (a : axis2) (f g : field2) : Prop :=
  forall t x y,
  derivable_pt_lim (line2 a f t x y) (coordinate2 a t x y) (g t x y).

Definition diff2 (a : axis2) (f : field2) : field2 :=
  fun t x y => central (line2 a f t x y) (coordinate2 a t x y) millionth.

(** Equality of the values everywhere. *)
Definition same3 (f g : field3) : Prop :=
  forall t x y z, f t x y z = g t x y z.
Definition same2 (f g : field2) : Prop :=
  forall t x y, f t x y = g t x y.

(** A computation that succeeds with these values. *)
Definition gives3 (o : outcome callable3) (f : field3) : Prop :=
  exists c, o = Done c /\ same3 (call3 c) f.
Definition givesv3 (o : outcome vector3) (f g h : field3) : Prop :=
  exists v, o = Done v /\
    same3 (call3 (v0 v)) f /\ same3 (call3 (v1 v)) g /\
    same3 (call3 (v2 v)) h.
Definition gives2 (o : outcome callable2) (f : field2) : Prop :=
  exists c, o = Done c /\ same2 (call2 c) f.
Definition givesv2 (o : outcome vector2) (f g : field2) : Prop :=
  exists v, o = Done v /\
    same2 (call2 (w0 v)) f /\ same2 (call2 (w1 v)) g.

(** What may be differentiated in 3D, and in 2D. *)
Definition plain3 (c : callable3) : Prop :=
  (kind3 c = Function /\ args3 c = 4%nat) \/
  (kind3 c = Method /\ args3 c = 5%nat).
Definition plainv3 (v : vector3) : Prop :=
  plain3 (v0 v) /\ plain3 (v1 v) /\ plain3 (v2 v).

Definition plain2 (c : callable2) : Prop :=
  (kind2 c = Function /\ args2 c = 3%nat) \/
  (kind2 c = Method /\ args2 c = 4%nat) \/ kind2 c = Instance.
Definition plainv2 (v : vector2) : Prop := plain2 (w0 v) /\ plain2 (w1 v).

(** [u . grad f]. *)
Definition along3 (u : vector3) (f : field3) : field3 := fun t x y z =>
  call3 (v0 u) t x y z * diff3 AX f t x y z
  + call3 (v1 u) t x y z * diff3 AY f t x y z
  + call3 (v2 u) t x y z * diff3 AZ f t x y z.
Definition along2 (u : vector2) (f : field2) : field2 := fun t x y =>
  call2 (w0 u) t x y * diff2 BX f t x y
  + call2 (w1 u) t x y * diff2 BY f t x y.

(** Values of a vector at a point. *)
Definition at3 (v : vector3) (t x y z : R) : R * R * R :=
  (call3 (v0 v) t x y z, call3 (v1 v) t x y z, call3 (v2 v) t x y z).
Definition at2 (v : vector2) (t x y : R) : R * R :=
  (call2 (w0 v) t x y, call2 (w1 v) t x y).

Definition inner (a b : R * R * R) : R :=
  let '(a0, a1, a2) := a in let '(b0, b1, b2) := b in
  a0 * b0 + a1 * b1 + a2 * b2.
Definition scale (c : R) (a : R * R * R) : R * R * R :=
  let '(a0, a1, a2) := a in (c * a0, c * a1, c * a2).
Definition plus (a b : R * R * R) : R * R * R :=
  let '(a0, a1, a2) := a in let '(b0, b1, b2) := b in
  (a0 + b0, a1 + b1, a2 + b2).

Definition determinant (a b c : R * R * R) : R :=
  let '(a0, a1, a2) := a in let '(b0, b1, b2) := b in
  let '(c0, c1, c2) := c in
  a0 * (b1 * c2 - b2 * c1) - a1 * (b0 * c2 - b2 * c0)
  + a2 * (b0 * c1 - b1 * c0).

(** Fields that cannot be differentiated again. *)
Definition stuck3 (c : callable3) : Prop :=
  gradient3 c = Raised NotImplementedError /\
  stime3 c = Raised NotImplementedError /\
  (forall u, sconvection3 c u = Raised NotImplementedError).
Definition stuckv3 (v : vector3) : Prop :=
  divergence3 v = Raised NotImplementedError /\
  curl3 v = Raised NotImplementedError /\
  vtime3 v = Raised NotImplementedError /\
  (forall u, vconvection3 v u = Raised NotImplementedError).

(** Acceptance of a formula by a check at some points. *)
Definition accepted (a : axis) (func_p self_p : list R) : Prop :=
  (forall f s, In (f, s) (combine func_p self_p) ->
     Rabs (f - s) < 1 / 100000) \/
  (forall f s, In (f, s) (combine func_p self_p) ->
     let den := match a with AZ => f | _ => s end in
     den <> 0 /\ Rabs (f - s) < 1 / 100000 * Rabs den).
