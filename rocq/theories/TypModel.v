(* Types of 2D regions by their metric, objects/CSCG/_2d/mesh/domain/regions/
   region/types_wrt_metric/transfinite.py, over the reals.  A line between two
   equal points has no direction (nan); the model of the angle is total, so
   theorems ask for sides that are not points. *)
From Coq Require Import Reals.
From Verif Require Import TriModel Edge2Model TsizeModel.
Local Open Scope R_scope.

(* components/functions/_2dSpace/check_if_two_lines_parallel.py 5-19 *)
Definition if_two_lines_parallel (a1 a2 b1 b2 : point) : bool :=
  if Req_EM_T (angle a1 a2) (angle b1 b2) then true else false.
Inductive rtype2 := rRaise | rChaos | rOrthogonal (lenL lenU : R) | rParallel (angL lenL LU lenU : R).
(* 50-52 *)
Definition angle_LU (aL aU : R) : R := (if Rlt_dec aU aL then aU + 2 * PI else aU) - aL.
(* np.testing.assert_almost_equal: abs(desired - actual) < 1.5 * 10 ** (-7) *)
Definition almost_equal (a d : R) : bool := if Rlt_dec (Rabs (d - a)) (15 / 100000000) then true else false.
(* 22-63; straight: _is_4_Straight_ of 24-30.  60: angle_L is in [0, 2 pi), so
   angle_L % (2 pi) is angle_L *)
Definition classify (straight : bool) (UL DL UR DR : point) : rtype2 :=
  if negb straight then rChaos else
  let len_L := distance UL DL in let len_R := distance UR DR in
  let len_U := distance UL UR in let len_D := distance DL DR in
  if Req_EM_T len_L len_R then
    if Req_EM_T len_U len_D then
      if andb (if_two_lines_parallel UL DL UR DR) (if_two_lines_parallel UL UR DL DR) then
        let angL := angle UL DL in let LU := angle_LU angL (angle UL UR) in
        if Rlt_dec angL (2 * PI) then
          if Rlt_dec 0 LU then
            if Rlt_dec LU PI then
              if almost_equal LU (PI / 2) then
                if Rlt_dec angL (1 / 1000000000000) then rOrthogonal len_L len_U else rParallel angL len_L LU len_U
              else rParallel angL len_L LU len_U
            else rRaise
          else rRaise
        else rRaise
      else rRaise
    else rChaos
  else rChaos.
(* 87-98: spacing[i][1] - spacing[i][0] is dx, dy *)
Definition classify_element (t : rtype2) (dx dy : R) : rtype2 :=
  match t with
  | rRaise => rRaise
  | rChaos => rChaos
  | rOrthogonal lenL lenU => rOrthogonal (dx * lenL) (dy * lenU)
  | rParallel a lenL LU lenU => rParallel a (dx * lenL) LU (dy * lenU)
  end.
