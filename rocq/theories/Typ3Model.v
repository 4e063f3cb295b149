(* Types of 3D regions by their metric, objects/CSCG/_3d/mesh/domain/regions/
   region/types_wrt_metric/transfinite.py, over the reals. *)
From Coq Require Import Reals Bool.
From Verif Require Import TfiModel.
Local Open Scope R_scope.

(* t3Raise: NotImplementedError of 63 or a failed assertion *)
Inductive rtype3 := t3Raise | t3Chaos | t3Orth (l : R * R * R).
Definition req (a b : R) : bool := if Req_EM_T a b then true else false.
Definition rlt (a b : R) : bool := if Rlt_dec a b then true else false.
Definition rle (a b : R) : bool := if Rle_dec a b then true else false.
(* a == b == c == d *)
Definition chain4 (a b c d : R) : bool := req a b && req b c && req c d.
(* 20-63; planes: _is_6_Plane_ of 20-26.  Corners in the order NWB, SWB, NEB,
   SEB, NWF, SWF, NEF, SEF *)
Definition classify3 (planes : bool) (k : Corners) : rtype3 :=
  if negb planes then t3Chaos else
  match k0 k, k1 k, k2 k, k3 k, k4 k, k5 k, k6 k, k7 k with
  | (NWB_x, NWB_y, NWB_z), (SWB_x, SWB_y, SWB_z), (NEB_x, NEB_y, NEB_z), (SEB_x, SEB_y, SEB_z),
    (NWF_x, NWF_y, NWF_z), (SWF_x, SWF_y, SWF_z), (NEF_x, NEF_y, NEF_z), (SEF_x, SEF_y, SEF_z) =>
      if chain4 NWB_x NEB_x NWF_x NEF_x && chain4 NWB_y SWB_y NWF_y SWF_y && chain4 NWB_z SWB_z NEB_z SEB_z &&
         chain4 SWB_x SEB_x SWF_x SEF_x && chain4 NEB_y SEB_y NEF_y SEF_y && chain4 NWF_z SWF_z NEF_z SEF_z
      then
        let L := SWB_x - NWB_x in let W := NEB_y - NWB_y in let H := NWF_z - NWB_z in
        if rlt 0 L && rlt 0 W && rlt 0 H then t3Orth (L, W, H) else t3Raise
      else t3Raise
  end.
(* 86-98, ___CLASSIFY_ELEMENT_of_spacing___; a spacing has shape (3, 2) *)
Definition spacing3 := ((R * R) * (R * R) * (R * R))%type.
Definition ok_interval (i : R * R) : bool := rle 0 (fst i) && rlt (fst i) (snd i) && rle (snd i) 1.
Definition classify_element3 (t : rtype3) (sp : spacing3) : rtype3 :=
  match sp with
  | (i0, i1, i2) =>
      if ok_interval i0 && ok_interval i1 && ok_interval i2 then
        match t with
        | t3Raise => t3Raise
        | t3Chaos => t3Chaos
        | t3Orth (lx, ly, lz) => t3Orth ((snd i0 - fst i0) * lx, (snd i1 - fst i1) * ly, (snd i2 - fst i2) * lz)
        end
      else t3Raise
  end.
