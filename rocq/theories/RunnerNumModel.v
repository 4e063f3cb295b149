(** Model of the writing and reading of numbers by the runner, as real numbers (Flocq). *)
From Coq Require Import Reals ZArith.
From Flocq Require Import Core.
Local Open Scope R_scope.

Definition ten : radix := Build_radix 10 eq_refl.
(** '%.16e' % x, _runner_.py:354-356: 17 significant decimal digits, rounded to the nearest *)
Definition decimal (x : R) : R := round ten (FLX_exp 17) ZnearestE x.
(** _runner_.py:350-354: an input with x % 1 == 0 is written as an integer, with all digits *)
Definition written (x : R) : R := if Req_EM_T x (IZR (Zfloor x)) then x else decimal x.
(** float(t), _runner_.py:365: the nearest double; overflow is left out. 366: a double with i % 1 == 0 becomes the equal int *)
Definition double (x : R) : R := round radix2 (FLT_exp (-1074) 53) ZnearestE x.
(** the number found in the pool for an input x, and in the data frame for an output x, after reading *)
Definition reread (x : R) : R := double (written x).
Definition reread_out (x : R) : R := double (decimal x).
