(** Specification of numbers of the runner. *)
From Coq Require Import Reals ZArith.
Local Open Scope R_scope.
(** the values of finite doubles (and more: the exponent is not bounded above) *)
Definition is_double (x : R) : Prop := exists m e : Z, x = IZR m * powerRZ 2 e /\ (Z.abs m < 2 ^ 53)%Z /\ (-1074 <= e)%Z.
