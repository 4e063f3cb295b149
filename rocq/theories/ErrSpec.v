(* Errors: roots of sums of powers of the differences of the field of the form
   and the exact field, over the points of the quadrature of all elements. *)
From Coq Require Import Reals List ZArith.
From Verif Require Import TfiModel TfiSpec CtModel CtSpec RingSum SpaceSpec DiscModel DiscSpec Disc2Model Disc2Spec ReconModel ReconSpec TriModel TreconSpec Rec2Model Rec2Spec ErrModel.
Import ListNotations.
Open Scope R_scope.

(* the values of the components of the form at a point of the reference element *)
Definition fields2 (k : kind2) (s : Space2) (c : list R) (J : R -> R -> (R * R) * (R * R)) (x y : R) (v : list R) : Prop :=
  match k, v with
  | K0, [a] => a = r2hat0 s c x y
  | K1 o, [a; b] => field1 o s c J x y (a, b)
  | K2, [a] => field2 s c J x y a
  | _, _ => False
  end.
Definition fieldst (k : kind2) (P : Poly1) (M : smap) (e : nat) (c : list R) (J : R -> R -> (R * R) * (R * R)) (x y : R) (v : list R) : Prop :=
  match k, v with
  | K0, [a] => a = that0 P c x y
  | K1 o, [a; b] => tpulls1 o (J x y) (a, b) (fun d => that1 o P M e c d x y)
  | K2, [a] => tpulls2 (J x y) a (that2 P c x y)
  | _, _ => False
  end.
Definition fields3 (k : kind3) (s : Space3) (c : list R) (J : R -> R -> R -> mat3) (x y z : R) (v : list R) : Prop :=
  match k, v with
  | V0, [a] => a = hat0 s c x y z
  | V1, [a; b; d] => pulls1 (J x y z) (a, b, d) (fun i => hat1 s c i x y z)
  | V2, [a; b; d] => pulls2 (J x y z) (a, b, d) (fun i => hat2 s c i x y z)
  | V3, [a] => pulls3 (J x y z) a (hat3 s c x y z)
  | _, _ => False
  end.
Definition num2 (k : kind2) : nat := match k with K1 _ => 2 | _ => 1 end.
Definition num3 (k : kind3) : nat := match k with V0 | V3 => 1 | _ => 3 end.
(* the exact field at the point *)
Definition exact2 (fs : list (R -> R -> R)) (F : (R -> R -> R) * (R -> R -> R)) (x y : R) : list R := map (fun f => through2 f F x y) fs.
Definition exact3 (fs : list (R -> R -> R -> R)) (F : coord -> R -> R -> R -> R) (x y z : R) : list R := map (fun f => through f F x y z) fs.
Definition pow_diff (n : nat) (v u : list R) : R := rsum (combine v u) (fun ab => (fst ab - snd ab) ^ n).
(* r is the n-th root of S, and no number if S is negative *)
Definition root_of (n : nat) (S : R) (r : option R) : Prop :=
  (0 <= S -> exists e, r = Some e /\ 0 <= e /\ e ^ n = S) /\ (S < 0 -> r = None).

(* ---------- elements ---------- *)
Definition good2 (r0 r1 : list R * list R) (e : Form2) : Prop :=
  regular (f2_el e) (fst r0) (fst r1) /\ orth_ok (f2_el e) (fst r0) (fst r1).
Definition goodt (r0 r1 : list R * list R) (e : FormT) : Prop := on_grid2 (fst r0) (fst r1) (fun x y => det2 (ft_J e x y) <> 0).
Definition good3 (k : kind3) (s : Space3) (m : Mesh3) (e : Form3) : Prop :=
  on_grid m (fun x y z => det3 (f3_J e x y z) <> 0) /\ (f3_orth e = true -> on_grid m (fun x y z => diagonal (f3_J e x y z))) /\
  match k with V1 => length (f3_c e) = length (cells (degrees s) edges3) | V2 => length (f3_c e) = length (cells (degrees s) faces3) | _ => True end.
Definition right2 (r0 r1 : list R * list R) (e : Form2) : Prop := on_grid2 (fst r0) (fst r1) (fun x y => 0 < det2 (el_J (f2_el e) x y)).
Definition rightt (r0 r1 : list R * list R) (e : FormT) : Prop := on_grid2 (fst r0) (fst r1) (fun x y => 0 < det2 (ft_J e x y)).
Definition right3 (m : Mesh3) (e : Form3) : Prop := on_grid m (fun x y z => 0 < det3 (f3_J e x y z)).

(* ---------- maxima ---------- *)
(* e is the greatest number of those that satisfy P *)
Definition greatest (P : R -> Prop) (e : R) : Prop := P e /\ forall d, P d -> d <= e.
(* the local cochain of the element is that of the exact field *)
Definition discretized2 (k : kind2) (g : Grid2) (s : Space2) (fs : list (R -> R -> R)) (e : Form2) : Prop :=
  let F := f2_map e in let J := el_J (f2_el e) in let orth := el_orth (f2_el e) in
  match k, fs with
  | K0, [f] => f2_c e = disc2_0 (hx g) (hy g) F f
  | K1 Inner, [a; b] => f2_c e = disc2_inner (hx g) (hy g) (pdeg (z0 s)) (pdeg (z1 s)) (sx g) (sy g) F J orth (a, b)
  | K1 Outer, [a; b] => f2_c e = disc2_outer (hx g) (hy g) (pdeg (z0 s)) (pdeg (z1 s)) (sx g) (sy g) F J orth (a, b)
  | K2, [f] => f2_c e = disc2_2 (hx g) (hy g) (pdeg (z0 s)) (pdeg (z1 s)) (sx g) (sy g) F J f
  | _, _ => False
  end.
Definition cells2 (k : kind2) (s : Space2) : list cell := cells (deg2 s) (match k with K0 => nodes2 | K1 o => edges2 o | K2 => faces2 end).
Definition discretized3 (k : kind3) (g : Grid) (s : Space3) (fs : list (R -> R -> R -> R)) (e : Form3) : Prop :=
  let F := f3_map e in let J := f3_J e in
  match k, fs with
  | V0, [f] => f3_c e = disc0 (gx g) (gy g) (gz g) F f
  | V1, [a; b; c] => f3_c e = disc1 (gx g) (gy g) (gz g) (pdeg (s0 s)) (pdeg (s1 s)) (pdeg (s2 s)) (rx g) (ry g) (rz g) F J (f3_orth e)
                                 (fun i => match i with cX => a | cY => b | cZ => c end)
  | V2, [a; b; c] => f3_c e = disc2 (gx g) (gy g) (gz g) (pdeg (s0 s)) (pdeg (s1 s)) (pdeg (s2 s)) (rx g) (ry g) (rz g) F J (f3_orth e)
                                 (fun i => match i with cX => a | cY => b | cZ => c end)
  | V3, [f] => f3_c e = disc3 (gx g) (gy g) (gz g) (pdeg (s0 s)) (pdeg (s1 s)) (pdeg (s2 s)) (rx g) (ry g) (rz g) F J f
  | _, _ => False
  end.
Definition cells3 (k : kind3) (s : Space3) : list cell := cells (degrees s) (match k with V0 => nodes3 | V1 => edges3 | V2 => faces3 | V3 => volumes3 end).
(* rectangular arrays of values, with k components *)
Definition shaped {X} (k : nat) (e : eel X) : Prop := length (vals e) = k /\ (forall v, In v (vals e) -> length v = length (xyz e)) /\ length (dets e) = length (xyz e).
(* a difference of a component at a point of an element *)
Definition a_diff {X} (fs : list (X -> R)) (els : list (eel X)) (d : R) : Prop :=
  exists e m i v f a x, In e els /\ nth_error (vals e) m = Some v /\ nth_error fs m = Some f /\ nth_error v i = Some a /\ nth_error (xyz e) i = Some x /\ d = Rabs (a - f x).
(* values that differ from the exact ones by constants *)
Definition off_by {X} (fs : list (X -> R)) (a : list R) (e : eel X) : Prop :=
  length (vals e) = length fs /\ forall m v f c, nth_error (vals e) m = Some v -> nth_error fs m = Some f -> nth_error a m = Some c ->
    length v = length (xyz e) /\ forall i x, nth_error (xyz e) i = Some x -> nth_error v i = Some (f x + c).
Definition a_diff3 (m : Mesh3) (fs : list (R -> R -> R -> R)) (els : list Form3) (v : Form3 -> R -> R -> R -> list R) (d : R) : Prop :=
  exists e x y z j a b, In e els /\ In x (mx m) /\ In y (my m) /\ In z (mz m) /\
    nth_error (v e x y z) j = Some a /\ nth_error (exact3 fs (f3_map e) x y z) j = Some b /\ d = Rabs (a - b).
Definition has_points (m : Mesh3) : Prop := mx m <> [] /\ my m <> [] /\ mz m <> [].
