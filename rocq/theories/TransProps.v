(** Property C44 (real numbers: axioms of the standard library's Reals). *)
From Coq Require Import Reals Lra.
From Verif Require Import TransModel TransSpec TransProofs.
Local Open Scope R_scope.

(** C44: each side of the square is mapped onto its curve *)
Theorem C44_sides : forall T, meet T -> forall t,
  (map_x T t 0 = cx (g0 T) t /\ map_y T t 0 = cy (g0 T) t) /\ (map_x T 1 t = cx (g1 T) t /\ map_y T 1 t = cy (g1 T) t) /\
  (map_x T t 1 = cx (g2 T) t /\ map_y T t 1 = cy (g2 T) t) /\ (map_x T 0 t = cx (g3 T) t /\ map_y T 0 t = cy (g3 T) t).
Proof. exact sides. Qed.
Print Assumptions C44_sides.
(** the coded partial derivatives are those of the mapping *)
Theorem C44_partials : forall T, derivatives T -> forall r s,
  derivable_pt_lim (fun r => map_x T r s) r (dx_dr T r s) /\ derivable_pt_lim (fun s => map_x T r s) s (dx_ds T r s) /\
  derivable_pt_lim (fun r => map_y T r s) r (dy_dr T r s) /\ derivable_pt_lim (fun s => map_y T r s) s (dy_ds T r s).
Proof. exact partials. Qed.
Print Assumptions C44_partials.
(** a square with a parabola as its upper side *)
Definition ex44 : transfinite :=
  mkT (mkCurve (fun t => 1 * t + 0) (fun t => 0 * t + 0)) (mkCurve (fun t => 0 * t + 1) (fun t => 3 * t + 0))
      (mkCurve (fun t => 1 * t + 0) (fun t => 3 * (t * t))) (mkCurve (fun t => 0 * t + 0) (fun t => 0 * t + 0))
      (mkCurve (fun _ => 1) (fun _ => 0)) (mkCurve (fun _ => 0) (fun _ => 3))
      (mkCurve (fun _ => 1) (fun t => 3 * (1 * t + t * 1))) (mkCurve (fun _ => 0) (fun _ => 0)).
Example C44_ex : meet ex44 /\ derivatives ex44 /\ map_y ex44 (1 / 2) 1 = 3 / 4 /\ dy_dr ex44 (1 / 2) 1 = 3.
Proof.
  split; [|split; [|split]].
  - unfold meet, ex44; cbn [g0 g1 g2 g3 cx cy]; repeat split; ring.
  - unfold derivatives, derivative_of, ex44; cbn [g0 g1 g2 g3 d0 d1 d2 d3 cx cy].
    repeat split; intros t; first [apply lim_line | apply lim_square].
  - unfold map_y, g1_y0, g1_y1, g3_y0, g3_y1, ex44. cbn [g0 g1 g2 g3 d0 d1 d2 d3 cx cy]. field.
  - unfold dy_dr, g1_y0, g1_y1, g3_y0, g3_y1, ex44. cbn [g0 g1 g2 g3 d0 d1 d2 d3 cx cy]. field.
Qed.
