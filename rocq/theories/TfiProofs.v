(* Proofs about TfiModel: transfinite interpolation, planes, boxes. *)
From Coq Require Import Reals List Lra.
From Verif Require Import TfiModel TransModel Edge2Model TfiSpec.
Import ListNotations.
Open Scope R_scope.

Lemma in01_0 : in01 0. Proof. unfold in01; lra. Qed.
Lemma in01_1 : in01 1. Proof. unfold in01; lra. Qed.
#[local] Hint Resolve in01_0 in01_1 : core.

Section Agree.
  Variables (g : Sides) (A : agree g).
  Let ag d d' c p q p' q' := A c d d' p q p' q'.
  Lemma aWN : forall c u, in01 u -> sval (gW g) c 0 u = sval (gN g) c 0 u.
  Proof. intros; apply (ag fW fN); auto. Qed.
  Lemma aEN : forall c u, in01 u -> sval (gE g) c 0 u = sval (gN g) c 1 u.
  Proof. intros; apply (ag fE fN); auto. Qed.
  Lemma aBN : forall c u, in01 u -> sval (gB g) c 0 u = sval (gN g) c u 0.
  Proof. intros; apply (ag fB fN); auto. Qed.
  Lemma aFN : forall c u, in01 u -> sval (gF g) c 0 u = sval (gN g) c u 1.
  Proof. intros; apply (ag fF fN); auto. Qed.
  Lemma aWS : forall c u, in01 u -> sval (gW g) c 1 u = sval (gS g) c 0 u.
  Proof. intros; apply (ag fW fS); auto. Qed.
  Lemma aES : forall c u, in01 u -> sval (gE g) c 1 u = sval (gS g) c 1 u.
  Proof. intros; apply (ag fE fS); auto. Qed.
  Lemma aBS : forall c u, in01 u -> sval (gB g) c 1 u = sval (gS g) c u 0.
  Proof. intros; apply (ag fB fS); auto. Qed.
  Lemma aFS : forall c u, in01 u -> sval (gF g) c 1 u = sval (gS g) c u 1.
  Proof. intros; apply (ag fF fS); auto. Qed.
  Lemma aBW : forall c u, in01 u -> sval (gB g) c u 0 = sval (gW g) c u 0.
  Proof. intros; apply (ag fB fW); auto. Qed.
  Lemma aFW : forall c u, in01 u -> sval (gF g) c u 0 = sval (gW g) c u 1.
  Proof. intros; apply (ag fF fW); auto. Qed.
  Lemma aBE : forall c u, in01 u -> sval (gB g) c u 1 = sval (gE g) c u 0.
  Proof. intros; apply (ag fB fE); auto. Qed.
  Lemma aFE : forall c u, in01 u -> sval (gF g) c u 1 = sval (gE g) c u 1.
  Proof. intros; apply (ag fF fE); auto. Qed.

  Lemma tf_restricts : restricts g (tf_map g).
  Proof.
    intros c d p q Hp Hq.
    destruct d; cbn [place at3 side_of];
      unfold tf_map, NnN, SsS, WwW, EeE, BbB, FfF, l_NW, l_NE, l_SW, l_SE, l_NB, l_NF,
        l_SB, l_SF, l_WB, l_WF, l_EB, l_EF, p_NWB, p_NWF, p_NEB, p_NEF, p_SWB, p_SWF, p_SEB, p_SEF;
      cbv zeta;
      repeat first
        [ rewrite aBN by assumption | rewrite aFN by assumption | rewrite aBS by assumption
        | rewrite aFS by assumption | rewrite aBW by assumption | rewrite aFW by assumption
        | rewrite aBE by assumption | rewrite aFE by assumption
        | rewrite aWN by auto | rewrite aEN by auto | rewrite aWS by auto | rewrite aES by auto ];
      ring.
  Qed.
End Agree.

Lemma restricts_agree : forall g f, restricts g f -> agree g.
Proof.
  intros g f H c d d' p q p' q' Hp Hq Hp' Hq' E.
  rewrite <- (H c d p q Hp Hq), <- (H c d' p' q' Hp' Hq'), E. reflexivity.
Qed.

Lemma tf_restricts_iff : forall g, restricts g (tf_map g) <-> agree g.
Proof.
  intros g; split; [apply restricts_agree | apply tf_restricts].
Qed.

(* ---- derivative ---- *)
Lemma lim_ext' : forall f h x l, (forall y, f y = h y) -> derivable_pt_lim f x l -> derivable_pt_lim h x l.
Proof.
  intros f h x l E D eps He. destruct (D eps He) as [del Hd]. exists del. intros k Hk Hk'.
  rewrite <- !E. apply Hd; assumption.
Qed.

(* A + B x + the sum of c u(x) *)
Fixpoint comb (l : list (R * (R -> R) * R)) (x : R) : R :=
  match l with [] => 0 | (k, u, _) :: l' => k * u x + comb l' x end.
Fixpoint dcomb (l : list (R * (R -> R) * R)) : R :=
  match l with [] => 0 | (k, _, du) :: l' => k * du + dcomb l' end.

Lemma lim_comb : forall l a b x,
  (forall k u du, In (k, u, du) l -> derivable_pt_lim u x du) ->
  derivable_pt_lim (fun y => a + b * y + comb l y) x (b + dcomb l).
Proof.
  intros l a b x. induction l as [|[[k u] du] l IH]; intro H.
  - apply (lim_ext' (fun y => a + b * y)); [intro; cbn [comb]; ring|].
    cbn [dcomb]. replace (b + 0) with (0 + b * 1) by ring.
    apply (derivable_pt_lim_plus (fun _ => a) (fun y => b * y));
      [apply derivable_pt_lim_const | apply (derivable_pt_lim_scal id b x 1); apply derivable_pt_lim_id].
  - apply (lim_ext' (fun y => (a + b * y + comb l y) + k * u y)); [intro; cbn [comb]; ring|].
    cbn [dcomb]. replace (b + (k * du + dcomb l)) with ((b + dcomb l) + k * du) by ring.
    apply (derivable_pt_lim_plus (fun y => a + b * y + comb l y) (fun y => k * u y)).
    + apply IH. intros k' u' du' Hin; apply (H k' u' du'); right; assumption.
    + apply (derivable_pt_lim_scal u k x du). apply (H k u du); left; reflexivity.
Qed.

Lemma tf_Jr_ok : forall g, side_derivs g -> forall c r s t,
  derivable_pt_lim (fun x => tf_map g c x s t) r (tf_Jr g c r s t).
Proof.
  intros g H c r s t.
  set (l := [(1 - s, fun x => sval (gW g) c x t, sdp (gW g) c r t);
             (s, fun x => sval (gE g) c x t, sdp (gE g) c r t);
             (1 - t, fun x => sval (gB g) c x s, sdp (gB g) c r s);
             (t, fun x => sval (gF g) c x s, sdp (gF g) c r s);
             (- ((1 - s) * (1 - t)), fun x => sval (gW g) c x 0, sdp (gW g) c r 0);
             (- ((1 - s) * t), fun x => sval (gW g) c x 1, sdp (gW g) c r 1);
             (- (s * (1 - t)), fun x => sval (gE g) c x 0, sdp (gE g) c r 0);
             (- (s * t), fun x => sval (gE g) c x 1, sdp (gE g) c r 1)]).
  set (b := tf_Jr g c r s t - dcomb l).
  set (a := tf_map g c 0 s t - comb l 0).
  replace (tf_Jr g c r s t) with (b + dcomb l) by (unfold b; ring).
  apply (lim_ext' (fun y => a + b * y + comb l y)).
  - intro y. unfold a, b, l, tf_map, tf_Jr. cbn [comb dcomb].
    unfold NnN, SsS, WwW, EeE, BbB, FfF, Wr_Wr, Er_Er, Br_Br, Fr_Fr, l_WB, l_WF, l_EB, l_EF,
      l_WB_r, l_WF_r, l_EB_r, l_EF_r. ring.
  - apply lim_comb. intros k u du Hin. unfold l in Hin. cbn [In] in Hin.
    repeat destruct Hin as [Hin|Hin]; try contradiction; injection Hin as _ <- <-;
      first [apply (H fW)|apply (H fE)|apply (H fB)|apply (H fF)].
Qed.

Lemma tf_Js_ok : forall g, side_derivs g -> forall c r s t,
  derivable_pt_lim (fun x => tf_map g c r x t) s (tf_Js g c r s t).
Proof.
  intros g H c r s t.
  set (l := [(1 - r, fun x => sval (gN g) c x t, sdp (gN g) c s t);
             (r, fun x => sval (gS g) c x t, sdp (gS g) c s t);
             (1 - t, fun x => sval (gB g) c r x, sdq (gB g) c r s);
             (t, fun x => sval (gF g) c r x, sdq (gF g) c r s);
             (- ((1 - r) * (1 - t)), fun x => sval (gN g) c x 0, sdp (gN g) c s 0);
             (- ((1 - r) * t), fun x => sval (gN g) c x 1, sdp (gN g) c s 1);
             (- (r * (1 - t)), fun x => sval (gS g) c x 0, sdp (gS g) c s 0);
             (- (r * t), fun x => sval (gS g) c x 1, sdp (gS g) c s 1)]).
  set (b := tf_Js g c r s t - dcomb l).
  set (a := tf_map g c r 0 t - comb l 0).
  replace (tf_Js g c r s t) with (b + dcomb l) by (unfold b; ring).
  apply (lim_ext' (fun y => a + b * y + comb l y)).
  - intro y. unfold a, b, l, tf_map, tf_Js. cbn [comb dcomb].
    unfold NnN, SsS, WwW, EeE, BbB, FfF, Ns_Ns, Ss_Ss, Bs_Bs, Fs_Fs, l_NB, l_NF, l_SB, l_SF,
      l_NB_s, l_NF_s, l_SB_s, l_SF_s. ring.
  - apply lim_comb. intros k u du Hin. unfold l in Hin. cbn [In] in Hin.
    repeat destruct Hin as [Hin|Hin]; try contradiction; injection Hin as _ <- <-;
      first [apply (H fN)|apply (H fS)|apply (H fB)|apply (H fF)].
Qed.

Lemma tf_Jt_ok : forall g, side_derivs g -> forall c r s t,
  derivable_pt_lim (fun x => tf_map g c r s x) t (tf_Jt g c r s t).
Proof.
  intros g H c r s t.
  set (l := [(1 - r, fun x => sval (gN g) c s x, sdq (gN g) c s t);
             (r, fun x => sval (gS g) c s x, sdq (gS g) c s t);
             (1 - s, fun x => sval (gW g) c r x, sdq (gW g) c r t);
             (s, fun x => sval (gE g) c r x, sdq (gE g) c r t);
             (- ((1 - r) * (1 - s)), fun x => sval (gN g) c 0 x, sdq (gN g) c 0 t);
             (- ((1 - r) * s), fun x => sval (gN g) c 1 x, sdq (gN g) c 1 t);
             (- (r * (1 - s)), fun x => sval (gS g) c 0 x, sdq (gS g) c 0 t);
             (- (r * s), fun x => sval (gS g) c 1 x, sdq (gS g) c 1 t)]).
  set (b := tf_Jt g c r s t - dcomb l).
  set (a := tf_map g c r s 0 - comb l 0).
  replace (tf_Jt g c r s t) with (b + dcomb l) by (unfold b; ring).
  apply (lim_ext' (fun y => a + b * y + comb l y)).
  - intro y. unfold a, b, l, tf_map, tf_Jt. cbn [comb dcomb].
    unfold NnN, SsS, WwW, EeE, BbB, FfF, Nt_Nt, St_St, Wt_Wt, Et_Et, l_NW, l_NE, l_SW, l_SE,
      l_NW_t, l_NE_t, l_SW_t, l_SE_t. ring.
  - apply lim_comb. intros k u du Hin. unfold l in Hin. cbn [In] in Hin.
    repeat destruct Hin as [Hin|Hin]; try contradiction; injection Hin as _ <- <-;
      first [apply (H fN)|apply (H fS)|apply (H fW)|apply (H fE)].
Qed.

Lemma tf_jacobian : forall g, side_derivs g -> jacobian_of (tf_map g) (tf_Jacobian_matrix g).
Proof.
  intros g H c r s t.
  pose proof (conj (tf_Jr_ok g H c r s t) (conj (tf_Js_ok g H c r s t) (tf_Jt_ok g H c r s t))) as D.
  destruct c; exact D.
Qed.
