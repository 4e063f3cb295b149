(** Proofs about TransModel. *)
From Coq Require Import Reals Lra.
From Verif Require Import TransModel TransSpec.
Local Open Scope R_scope.

Lemma sides : forall T, meet T -> forall t,
  (map_x T t 0 = cx (g0 T) t /\ map_y T t 0 = cy (g0 T) t) /\ (map_x T 1 t = cx (g1 T) t /\ map_y T 1 t = cy (g1 T) t) /\
  (map_x T t 1 = cx (g2 T) t /\ map_y T t 1 = cy (g2 T) t) /\ (map_x T 0 t = cx (g3 T) t /\ map_y T 0 t = cy (g3 T) t).
Proof.
  intros T [[A1 A2] [[B1 B2] [[C1 C2] [D1 D2]]]] t.
  unfold map_x, map_y, g1_x0, g1_y0, g1_x1, g1_y1, g3_x0, g3_y0, g3_x1, g3_y1.
  rewrite A1, A2, B1, B2, C1, C2, D1, D2. repeat split; ring.
Qed.

(** derivative of a function of the shape (1-t)a + t b + c u(t) + d v(t) + e *)
Lemma lim_lin : forall a b u v du dv c d e t, derivable_pt_lim u t du -> derivable_pt_lim v t dv ->
  derivable_pt_lim (fun t => a * t + b + c * u t + d * v t + e * t) t (a + c * du + d * dv + e).
Proof.
  intros a b u v du dv c d e t U V.
  replace (a + c * du + d * dv + e) with (((a * 1 + 0) + c * du) + d * dv + e * 1) by ring.
  apply (derivable_pt_lim_plus (fun t => a * t + b + c * u t + d * v t) (fun t => e * t)).
  - apply (derivable_pt_lim_plus (fun t => a * t + b + c * u t) (fun t => d * v t)).
    + apply (derivable_pt_lim_plus (fun t => a * t + b) (fun t => c * u t)).
      * apply (derivable_pt_lim_plus (fun t => a * t) (fun _ => b)); [apply (derivable_pt_lim_scal id a t 1); apply derivable_pt_lim_id | apply derivable_pt_lim_const].
      * apply (derivable_pt_lim_scal u c t du U).
    + apply (derivable_pt_lim_scal v d t dv V).
  - apply (derivable_pt_lim_scal id e t 1). apply derivable_pt_lim_id.
Qed.
Lemma lim_ext : forall f g t l, (forall x, f x = g x) -> derivable_pt_lim f t l -> derivable_pt_lim g t l.
Proof.
  intros f g t l E H eps P. destruct (H eps P) as [d D]. exists d. intros h N L. rewrite <- !E. apply D; assumption.
Qed.
Lemma partials : forall T, derivatives T -> forall r s,
  derivable_pt_lim (fun r => map_x T r s) r (dx_dr T r s) /\ derivable_pt_lim (fun s => map_x T r s) s (dx_ds T r s) /\
  derivable_pt_lim (fun r => map_y T r s) r (dy_dr T r s) /\ derivable_pt_lim (fun s => map_y T r s) s (dy_ds T r s).
Proof.
  intros T [[A1 A2] [[B1 B2] [[C1 C2] [D1 D2]]]] r s.
  unfold map_x, map_y, dx_dr, dx_ds, dy_dr, dy_ds.
  split; [|split; [|split]].
  - pose proof (lim_lin (- cx (g3 T) s + cx (g1 T) s) (cx (g3 T) s - ((1-s)*g1_x0 T + s*g3_x0 T)) _ _ _ _ (1-s) s
      (((1-s)*g1_x0 T + s*g3_x0 T) - ((1-s)*g1_x1 T + s*g3_x1 T)) r (A1 r) (C1 r)) as H.
    match type of H with derivable_pt_lim _ _ ?v => match goal with |- derivable_pt_lim _ _ ?w => replace w with v by ring end end.
    revert H. apply lim_ext. intros t. ring.
  - pose proof (lim_lin (- cx (g0 T) r + cx (g2 T) r) (cx (g0 T) r - ((1-r)*g1_x0 T + r*g1_x1 T)) _ _ _ _ (1-r) r
      (- ((1-r)*(- g1_x0 T + g3_x0 T)) - r*(- g1_x1 T + g3_x1 T)) s (D1 s) (B1 s)) as H.
    match type of H with derivable_pt_lim _ _ ?v => match goal with |- derivable_pt_lim _ _ ?w => replace w with v by ring end end.
    revert H. apply lim_ext. intros t. ring.
  - pose proof (lim_lin (- cy (g3 T) s + cy (g1 T) s) (cy (g3 T) s - ((1-s)*g1_y0 T + s*g3_y0 T)) _ _ _ _ (1-s) s
      (((1-s)*g1_y0 T + s*g3_y0 T) - ((1-s)*g1_y1 T + s*g3_y1 T)) r (A2 r) (C2 r)) as H.
    match type of H with derivable_pt_lim _ _ ?v => match goal with |- derivable_pt_lim _ _ ?w => replace w with v by ring end end.
    revert H. apply lim_ext. intros t. ring.
  - pose proof (lim_lin (- cy (g0 T) r + cy (g2 T) r) (cy (g0 T) r - ((1-r)*g1_y0 T + r*g1_y1 T)) _ _ _ _ (1-r) r
      (- ((1-r)*(- g1_y0 T + g3_y0 T)) - r*(- g1_y1 T + g3_y1 T)) s (D2 s) (B2 s)) as H.
    match type of H with derivable_pt_lim _ _ ?v => match goal with |- derivable_pt_lim _ _ ?w => replace w with v by ring end end.
    revert H. apply lim_ext. intros t. ring.
Qed.
Lemma lim_line : forall a b t, derivable_pt_lim (fun t => a * t + b) t a.
Proof.
  intros a b t. assert (H : derivable_pt_lim (fun t => a * t + b) t (a * 1 + 0)).
  2: { replace (a * 1 + 0) with a in H by ring. exact H. }
  apply (derivable_pt_lim_plus (fun t => a * t) (fun _ => b)); [apply (derivable_pt_lim_scal id a t 1); apply derivable_pt_lim_id | apply derivable_pt_lim_const].
Qed.
Lemma lim_square : forall a t, derivable_pt_lim (fun t => a * (t * t)) t (a * (1 * t + t * 1)).
Proof.
  intros a t. apply (derivable_pt_lim_scal (fun t => t * t) a t).
  apply (derivable_pt_lim_mult id id t 1 1); apply derivable_pt_lim_id.
Qed.
