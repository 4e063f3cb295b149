(* Rules of arithmetic, and the fields of sums and multiples. *)
From Coq Require Import String.
From Coq Require Import Reals List Lia Lra Arith Bool ZArith.
From Verif Require Import TfiModel TfiSpec CtModel CtSpec RingSum SpaceSpec DiscModel DiscSpec DiscProofs2 Disc2Model Disc2Spec ReconModel ReconSpec ReconProofs TriModel TriSpec TdiscSpec TreconSpec Rec2Model Rec2Spec.
From Verif Require Import FarModel FarSpec FarProofs ErrModel ErrSpec.
Import ListNotations.
Open Scope R_scope.
Section A.
Variables (els : nat -> list nat) (nbasis : nat -> nat -> nat).
Notation ready f := (full els nbasis f /\ exists l, f_local f = Some l).
Notation add := (add_cscg els nbasis).
Notation sub := (sub_3d els nbasis).
Lemma alike_sym a b : alike a b -> alike b a.
Proof. intros (P & Q & S). repeat split; congruence. Qed.
Lemma alike_trans a b c : alike a b -> alike b c -> alike a c.
Proof. intros (P & Q & S) (P' & Q' & S'). repeat split; congruence. Qed.
Lemma entry_get op x y c i : entrywise op x y c -> (i < length c)%nat -> exists u v, nth_error x i = Some u /\ nth_error y i = Some v /\ nth_error c i = Some (op u v).
Proof.
  intros (Lx & Ly & E) I. destruct (nth_error x i) as [u|] eqn:X; [|apply nth_error_None in X; lia]. destruct (nth_error y i) as [v|] eqn:Y; [|apply nth_error_None in Y; lia]. exists u, v. auto.
Qed.
Lemma list_eq (c d : list R) : length c = length d -> (forall i, (i < length c)%nat -> nth_error c i = nth_error d i) -> c = d.
Proof. intros L H. apply (nth_ext c d 0 0 L). intros i I. specialize (H i I). destruct (nth_error c i) as [x|] eqn:X; [|apply nth_error_None in X; lia]. rewrite (nth_error_nth c i 0 X). symmetry in H. rewrite (nth_error_nth d i 0 H). reflexivity. Qed.
Theorem add_comm a b : alike a b -> ready a -> ready b -> exists f g, add a b = Some f /\ add b a = Some g /\ same_cochains els f g.
Proof.
  intros K [FA LA] [FB LB]. destruct (combine_forms_ok els nbasis Rplus "+" a b K FA FB LA LB) as (f & F & Kf & _ & _ & _ & _ & Vf).
  destruct (combine_forms_ok els nbasis Rplus "+" b a (alike_sym a b K) FB FA LB LA) as (g & G & Kg & _ & _ & _ & _ & Vg).
  exists f, g. split; [exact F|]. split; [exact G|]. split; [exact (alike_trans _ _ _ (alike_sym _ _ Kf) (alike_trans _ _ _ K Kg))|].
  intros e I. rewrite <- (proj1 (proj2 Kf)) in I. destruct (FA e I) as (x & X & _). assert (I' := I). rewrite (proj1 (proj2 K)) in I'. destruct (FB e I') as (y & Y & _).
  destruct (Vf e x y I X Y) as (c & C & E). destruct (Vg e y x I' Y X) as (d & D & E'). exists c. split; [exact C|]. replace c with d; [exact D|].
  apply (entrywise_one Rplus y x); [exact E'|]. destruct E as (P & Q & E). split; [exact Q|]. split; [exact P|]. intros i u v U V. rewrite Rplus_comm. apply E; assumption.
Qed.
Theorem add_assoc a b d : alike a b -> alike b d -> ready a -> ready b -> ready d ->
  exists ab bd f g, add a b = Some ab /\ add ab d = Some f /\ add b d = Some bd /\ add a bd = Some g /\ same_cochains els f g.
Proof.
  intros K K' [FA LA] [FB LB] [FD LD]. destruct (combine_forms_ok els nbasis Rplus "+" a b K FA FB LA LB) as (ab & AB & Kab & _ & _ & Fab & Lab & Vab).
  destruct (combine_forms_ok els nbasis Rplus "+" b d K' FB FD LB LD) as (bd & BD & Kbd & _ & _ & Fbd & Lbd & Vbd).
  destruct (combine_forms_ok els nbasis Rplus "+" ab d (alike_trans _ _ _ (alike_sym _ _ Kab) (alike_trans _ _ _ K K')) Fab FD Lab LD) as (f & F & Kf & _ & _ & _ & _ & Vf).
  destruct (combine_forms_ok els nbasis Rplus "+" a bd (alike_trans _ _ _ K Kbd) FA Fbd LA Lbd) as (g & G & Kg & _ & _ & _ & _ & Vg).
  exists ab, bd, f, g. repeat (split; [assumption|]). split; [exact (alike_trans _ _ _ (alike_sym _ _ Kf) (alike_trans _ _ _ (alike_sym _ _ Kab) Kg))|].
  intros e I. rewrite <- (proj1 (proj2 Kf)) in I. assert (Ia := I). rewrite <- (proj1 (proj2 Kab)) in Ia. assert (Ib := Ia). rewrite (proj1 (proj2 K)) in Ib. assert (Id := Ib). rewrite (proj1 (proj2 K')) in Id.
  destruct (FA e Ia) as (x & X & _). destruct (FB e Ib) as (y & Y & _). destruct (FD e Id) as (z & Z & _).
  destruct (Vab e x y Ia X Y) as (xy & XY & E1). destruct (Vbd e y z Ib Y Z) as (yz & YZ & E2). destruct (Vf e xy z I XY Z) as (c & C & E3). destruct (Vg e x yz Ia X YZ) as (c' & C' & E4).
  exists c. split; [exact C|]. replace c with c'; [exact C'|]. assert (Lc : length c' = length c).
  { destruct E1 as (P1 & Q1 & _), E2 as (P2 & Q2 & _), E3 as (P3 & Q3 & _), E4 as (P4 & Q4 & _). congruence. }
  apply list_eq; [exact Lc|]. intros i Hi. destruct (entry_get _ _ _ _ i E4 Hi) as (u & vw & U & VW & ->). rewrite Lc in Hi. destruct (entry_get _ _ _ _ i E3 Hi) as (uv & w & UV & W & ->).
  assert (i < length xy)%nat by (apply nth_error_Some; congruence). assert (i < length yz)%nat by (apply nth_error_Some; congruence).
  destruct (entry_get _ _ _ _ i E1 ltac:(assumption)) as (u1 & v1 & U1 & V1 & W1). destruct (entry_get _ _ _ _ i E2 ltac:(assumption)) as (v2 & w2 & V2 & W2 & W3). f_equal.
  replace uv with (u1 + v1) by congruence. replace vw with (v2 + w2) by congruence. replace u1 with u by congruence. replace v2 with v1 by congruence. replace w2 with w by congruence. ring.
Qed.
Theorem sub_add a b : alike a b -> ready a -> ready b -> exists d f, sub a b = Some d /\ add d b = Some f /\ same_cochains els f a.
Proof.
  intros K [FA LA] [FB LB]. destruct (combine_forms_ok els nbasis Rminus "-" a b K FA FB LA LB) as (d & D & Kd & _ & _ & Fd & Ld & Vd).
  destruct (combine_forms_ok els nbasis Rplus "+" d b (alike_trans _ _ _ (alike_sym _ _ Kd) K) Fd FB Ld LB) as (f & F & Kf & _ & _ & _ & _ & Vf).
  exists d, f. split; [exact D|]. split; [exact F|]. split; [exact (alike_trans _ _ _ (alike_sym _ _ Kf) (alike_sym _ _ Kd))|].
  intros e I. rewrite <- (proj1 (proj2 Kf)) in I. assert (Ia := I). rewrite <- (proj1 (proj2 Kd)) in Ia. assert (Ib := Ia). rewrite (proj1 (proj2 K)) in Ib.
  destruct (FA e Ia) as (x & X & _). destruct (FB e Ib) as (y & Y & _). destruct (Vd e x y Ia X Y) as (z & Z & E1). destruct (Vf e z y I Z Y) as (c & C & E2).
  exists x. split; [|exact X]. replace x with c; [exact C|]. assert (Lc : length c = length x) by (destruct E1 as (P1 & Q1 & _), E2 as (P2 & Q2 & _); congruence).
  apply list_eq; [exact Lc|]. intros i Hi. destruct (entry_get _ _ _ _ i E2 Hi) as (w & v & W & V & ->). assert (i < length z)%nat by (apply nth_error_Some; congruence).
  destruct (entry_get _ _ _ _ i E1 ltac:(assumption)) as (u1 & v1 & U1 & V1 & W1). rewrite U1. f_equal. replace w with (u1 - v1) by congruence. replace v with v1 by congruence. ring.
Qed.
(* a + (-1) * b, the only difference of 2D forms *)
Theorem minus_2d a b : alike a b -> ready a -> ready b -> exists n f, rmul_2d els nbasis (Number "-1" (-1)) b = Some n /\ add a n = Some f /\
  forall e x y, In e (els (f_mesh a)) -> has a e x -> has b e y -> exists c, has f e c /\ entrywise Rminus x y c.
Proof.
  intros K [FA LA] [FB LB]. destruct (rmul_ok els nbasis "-1" (-1) b FB LB) as (n3 & n & _ & N & Eq & _ & Kn & _ & _ & _ & Fn & Ln & Vn).
  destruct (combine_forms_ok els nbasis Rplus "+" a n (alike_trans _ _ _ K Kn) FA Fn LA ltac:(rewrite <- Eq; exact Ln)) as (f & F & Kf & _ & _ & _ & _ & Vf).
  exists n, f. split; [exact N|]. split; [exact F|]. intros e x y I X Y. assert (Ib := I). rewrite (proj1 (proj2 K)) in Ib. destruct (Vn e y Ib Y) as (m & M & (Lm & Em)).
  assert (M' : has n e m) by (destruct M as (l & L & Q); exists l; rewrite <- Eq; split; assumption). destruct (Vf e x m I X M') as (c & C & (P & Q & E)).
  exists c. split; [exact C|]. split; [exact P|]. split; [congruence|]. intros i u v U V. rewrite (E i u (-1 * v) U (Em i v V)). f_equal. ring.
Qed.
(* r * (a + b) and r * a + r * b *)
Theorem mul_add t r a b : alike a b -> ready a -> ready b -> exists s f ra rb g, add a b = Some s /\ rmul_3d els nbasis (Number t r) s = Some f /\
  rmul_3d els nbasis (Number t r) a = Some ra /\ rmul_3d els nbasis (Number t r) b = Some rb /\ add ra rb = Some g /\ same_cochains els f g.
Proof.
  intros K [FA LA] [FB LB]. destruct (combine_forms_ok els nbasis Rplus "+" a b K FA FB LA LB) as (s & S & Ks & _ & _ & Fs & Ls & Vs).
  destruct (rmul_ok els nbasis t r s Fs Ls) as (f & _ & F & _ & _ & Kf & _ & _ & _ & _ & _ & _ & Vf).
  destruct (rmul_ok els nbasis t r a FA LA) as (ra & _ & RA & _ & _ & Kra & _ & _ & _ & Fra & _ & Lra & Vra).
  destruct (rmul_ok els nbasis t r b FB LB) as (rb & _ & RB & _ & _ & Krb & _ & _ & _ & Frb & _ & Lrb & Vrb).
  destruct (combine_forms_ok els nbasis Rplus "+" ra rb (alike_trans _ _ _ (alike_sym _ _ Kra) (alike_trans _ _ _ K Krb)) Fra Frb Lra Lrb) as (g & G & Kg & _ & _ & _ & _ & Vg).
  exists s, f, ra, rb, g. repeat (split; [assumption|]). split; [exact (alike_trans _ _ _ (alike_sym _ _ Kf) (alike_trans _ _ _ (alike_sym _ _ Ks) (alike_trans _ _ _ Kra Kg)))|].
  intros e I. rewrite <- (proj1 (proj2 Kf)) in I. assert (Ia := I). rewrite <- (proj1 (proj2 Ks)) in Ia. assert (Ib := Ia). rewrite (proj1 (proj2 K)) in Ib. assert (Ir := Ia). rewrite (proj1 (proj2 Kra)) in Ir.
  destruct (FA e Ia) as (x & X & _). destruct (FB e Ib) as (y & Y & _). destruct (Vs e x y Ia X Y) as (z & Z & (P1 & Q1 & E1)). destruct (Vf e z I Z) as (c & C & (Lc & Ec)).
  destruct (Vra e x Ia X) as (rx & RX & (Lrx & Erx)). destruct (Vrb e y Ib Y) as (ry & RY & (Lry & Ery)). destruct (Vg e rx ry Ir RX RY) as (c' & C' & E2).
  exists c. split; [exact C|]. replace c with c'; [exact C'|]. apply (entrywise_one Rplus rx ry); [exact E2|]. split; [congruence|]. split; [congruence|].
  intros i u v U V. assert (i < length rx)%nat by (apply nth_error_Some; congruence). destruct (nth_error x i) as [x0|] eqn:X0; [|apply nth_error_None in X0; lia].
  destruct (nth_error y i) as [y0|] eqn:Y0; [|apply nth_error_None in Y0; lia]. rewrite (Ec i _ (E1 i _ _ X0 Y0)). rewrite (Erx i _ X0) in U. rewrite (Ery i _ Y0) in V. injection U as <-. injection V as <-. f_equal. ring.
Qed.
End A.
