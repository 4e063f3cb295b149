(** What a transfinite mapping is given and should be. *)
From Coq Require Import Reals.
From Verif Require Import TransModel.
Local Open Scope R_scope.

(** the four curves of the picture (lines 31-43) meet in the corners *)
Definition meet (T : transfinite) : Prop :=
  (cx (g0 T) 0 = cx (g3 T) 0 /\ cy (g0 T) 0 = cy (g3 T) 0) /\ (cx (g0 T) 1 = cx (g1 T) 0 /\ cy (g0 T) 1 = cy (g1 T) 0) /\
  (cx (g2 T) 0 = cx (g3 T) 1 /\ cy (g2 T) 0 = cy (g3 T) 1) /\ (cx (g2 T) 1 = cx (g1 T) 1 /\ cy (g2 T) 1 = cy (g1 T) 1).
Definition derivative_of (c d : curve) : Prop :=
  (forall t, derivable_pt_lim (cx c) t (cx d t)) /\ (forall t, derivable_pt_lim (cy c) t (cy d t)).
Definition derivatives (T : transfinite) : Prop :=
  derivative_of (g0 T) (d0 T) /\ derivative_of (g1 T) (d1 T) /\ derivative_of (g2 T) (d2 T) /\ derivative_of (g3 T) (d3 T).
