(* Errors of forms against their continuous form (CF), on several cores:
   objects/CSCG/_2d/forms/standard/base/error.py (2D),
   objects/CSCG/_3d/forms/standard/base/error.py (3D) and
   objects/miUsGrid/triangular/forms/standard/base/error.py (tri).
   None is an exception or nan. *)
From Coq Require Import Reals List ZArith.
From Verif Require Import TfiModel CtModel DiscModel Disc2Model ReconModel TriModel TreconModel Rec2Model.
Import ListNotations.
Open Scope R_scope.

(* ---------- one element: points, values of the components, Jacobian ---------- *)
Section Err.
Context {X : Type}.
Record eel := mkEel { xyz : list X; vals : list (list R); dets : list R }.
(* 2D 84-90, 3D 150-157, tri 48-54; the components of CF at the current time: fs *)
Definition diffs (n : nat) (fs : list (X -> R)) (e : eel) : list (list R) :=
  map2 (fun v f => map2 (fun a x => (a - f x) ^ n) v (xyz e)) (vals e) fs.
Definition err_element (n : nat) (w : list R) (fs : list (X -> R)) (e : eel) : R :=
  lsum (map2 Rmult (map2 Rmult (sum_axis0 (diffs n fs e) (length (xyz e))) (dets e)) w).
(* x ** (1 / n) for a number x >= 0; nan for x < 0, and for 3D the assertion of
   170 fails.  The n of the code is any number in 2D and tri. *)
Definition nth_root (n : nat) (x : R) : option R :=
  match n with
  | O => None
  | _ => match total_order_T x 0 with
         | inleft (left _) => None
         | inleft (right _) => Some 0
         | inright _ => Some (Rpower x (/ INR n))
         end
  end.
(* 2D 81-101, 3D 146-172, tri 45-65: the elements of each core, in order *)
Definition err_L (n : nat) (w : list R) (fs : list (X -> R)) (cores : list (list eel)) : option R :=
  nth_root n (lsum (map (fun els => lsum (map (err_element n w fs) els)) cores)).

(* ---------- upon: 2D 37-78, 3D 77-119 ---------- *)
(* bi, base_xyz, base_val of one core; an element has a point *)
Definition base_of (els : list eel) : option (X * list R) :=
  match els with
  | [] => None
  | e :: _ => match xyz e with [] => None | x :: _ => Some (x, map (hd 0) (vals e)) end
  end.
(* the loop over the gathered ones *)
Fixpoint first_base (l : list (option (X * list R))) : option (X * list R) :=
  match l with
  | [] => None
  | Some b :: _ => Some b
  | None :: r => first_base r
  end.
Definition shift_by (add_to : list R) (e : eel) : eel :=
  mkEel (xyz e) (map2 (fun v a => map (fun x => x + a) v) (vals e) add_to) (dets e).
(* func: the bodies of self._sf_.func *)
Definition err_upon (func : option (list (X -> R))) (n : nat) (w : list R) (fs : list (X -> R)) (cores : list (list eel)) : option R :=
  match func with
  | None => None
  | Some gs =>
      match first_base (map base_of cores) with
      | None => None
      | Some (x, bv) => err_L n w fs (map (map (shift_by (map2 (fun g b => g x - b) gs bv))) cores)
      end
  end.
(* objects/base/form/base.py 11-60, CSCG/base/forms/base/main.py 14-70: the forms
   have CF and BC; there is no attribute func *)
Definition form_func : option (list (X -> R)) := None.

(* ---------- 3D, n = 'infinity': 122-141 ---------- *)
(* np.max and max *)
Definition list_max (l : list R) : option R := match l with [] => None | a :: r => Some (fold_left Rmax r a) end.
Fixpoint all_vals (l : list (option R)) : option (list R) :=
  match l with
  | [] => Some []
  | Some a :: r => option_map (cons a) (all_vals r)
  | None :: _ => None
  end.
Definition max_of (l : list (option R)) : option R := match all_vals l with Some r => list_max r | None => None end.
Definition inf_element (fs : list (X -> R)) (e : eel) : option R :=
  max_of (map2 (fun v f => list_max (map2 (fun a x => Rabs (a - f x)) v (xyz e))) (vals e) fs).
Definition inf_core (fs : list (X -> R)) (els : list eel) : option R :=
  match all_vals (map (inf_element fs) els) with
  | None => None
  | Some l => Some (fold_left (fun loc e => if Rlt_dec loc e then e else loc) l (-1))
  end.
Definition err_inf (fs : list (X -> R)) (cores : list (list eel)) : option R :=
  match max_of (map (inf_core fs) cores) with
  | Some g => if Rle_dec 0 g then Some g else None
  | None => None
  end.
End Err.
Arguments eel : clear implicits.
(* 3D 47-58: the nodes of one axis; root3: density_per_element ** (1/3) *)
Definition linspace (a b : R) (n : nat) : list R := map (fun i => a + INR i * ((b - a) / INR (n - 1))) (seq 0 n).
Definition inf_num (root3 : R) : nat :=
  let r := if Rlt_dec root3 1 then 3 else root3 in
  if Rle_dec (1 / 2) (frac_part r) then Z.to_nat (Int_part r) + 1 else Z.to_nat (Int_part r).
Definition inf_nodes (root3 : R) : list R :=
  let l := linspace (-1) 1 (inf_num root3 + 1) in map2 (fun a b => (a + b) / 2) (removelast l) (tl l).

(* ---------- H: 2D 115-120, 3D 187-192, tri 78-98 ---------- *)
Definition err_H (self d : option R) : option R :=
  match self, d with Some a, Some b => nth_root 2 (a ^ 2 + b ^ 2) | _, _ => None end.

(* ---------- the elements of the forms ---------- *)
Inductive kind2 := K0 | K1 (o : orient) | K2.
Inductive kind3 := V0 | V1 | V2 | V3.
(* one element: Jacobian (and mark), mapping, local cochain *)
Record Form2 := mkForm2 { f2_el : El2; f2_map : emap2; f2_c : list R }.
Record FormT := mkFormT { ft_cell : nat; ft_J : ejac2; ft_map : emap2; ft_c : list R }.
Record Form3 := mkForm3 { f3_orth : bool; f3_J : ejac; f3_map : DiscModel.emap; f3_c : list R }.
Definition both (l : list (R * R)) : list (list R) := [map fst l; map snd l].
Definition each (l : list (R * R * R)) : list (list R) := [map (fun v => fst (fst v)) l; map (fun v => snd (fst v)) l; map snd l].
(* v[i], in order 'F' *)
Definition vals2 (k : kind2) (s : Space2) (xi et : list R) (e : Form2) : list (list R) :=
  match k with
  | K0 => [r2recon0 s xi et (f2_c e)]
  | K1 o => both (r2recon1 o s xi et (f2_el e) (f2_c e))
  | K2 => [r2recon2 s xi et (f2_el e) (f2_c e)]
  end.
Definition valst (k : kind2) (P : Poly1) (M : smap) (xi et : list R) (e : FormT) : list (list R) :=
  match k with
  | K0 => [trecon0 P xi et (ft_c e)]
  | K1 o => both (trecon1 o P M (ft_cell e) xi et (ft_J e) (ft_c e))
  | K2 => [trecon2 P xi et (ft_J e) (ft_c e)]
  end.
Definition vals3 (k : kind3) (s : Space3) (m : Mesh3) (e : Form3) : list (list R) :=
  match k with
  | V0 => [recon0 s m (f3_c e)]
  | V1 => each (recon1 s m (f3_J e) (f3_orth e) (f3_c e))
  | V2 => each (recon2 s m (f3_J e) (f3_orth e) (f3_c e))
  | V3 => [recon3 s m (f3_J e) (f3_c e)]
  end.
Definition pt2 (F : emap2) (q : R * R) : R * R := (fst F (fst q) (snd q), snd F (fst q) (snd q)).
Definition pt3 (F : DiscModel.emap) (q : R * R * R) : R * R * R := (at_pt (F cX) q, at_pt (F cY) q, at_pt (F cZ) q).
Definition eel2 (k : kind2) (s : Space2) (r0 r1 : rule) (e : Form2) : eel (R * R) :=
  mkEel (map (pt2 (f2_map e)) (tmesh r0 r1)) (vals2 k s (fst r0) (fst r1) e) (map (fun q => ct2_Jacobian (at2 (el_J (f2_el e)) q)) (tmesh r0 r1)).
Definition eelt (k : kind2) (P : Poly1) (M : smap) (r0 r1 : rule) (e : FormT) : eel (R * R) :=
  mkEel (map (pt2 (ft_map e)) (tmesh r0 r1)) (valst k P M (fst r0) (fst r1) e) (map (fun q => ct2_Jacobian (at2 (ft_J e) q)) (tmesh r0 r1)).
Definition eel3 (k : kind3) (s : Space3) (m : Mesh3) (e : Form3) : eel (R * R * R) :=
  mkEel (map (pt3 (f3_map e)) (points m)) (vals3 k s m e) (map (fun q => ct_Jacobian (at_pt (f3_J e) q)) (points m)).
(* error.L; fs: FUNC *)
Definition err2 (k : kind2) (s : Space2) (r0 r1 : rule) (n : nat) (fs : list fun2) (cores : list (list Form2)) : option R :=
  err_L n (tweights r0 r1) (map at2 fs) (map (map (eel2 k s r0 r1)) cores).
Definition errt (k : kind2) (P : Poly1) (M : smap) (r0 r1 : rule) (n : nat) (fs : list fun2) (cores : list (list FormT)) : option R :=
  err_L n (tweights r0 r1) (map at2 fs) (map (map (eelt k P M r0 r1)) cores).
Definition err3 (k : kind3) (s : Space3) (q : Rule3) (n : nat) (fs : list (R -> R -> R -> R)) (cores : list (list Form3)) : option R :=
  err_L n (qw q) (map at_pt fs) (map (map (eel3 k s (qmesh q))) cores).
Definition err3_inf (k : kind3) (s : Space3) (m : Mesh3) (fs : list (R -> R -> R -> R)) (cores : list (list Form3)) : option R :=
  err_inf (map at_pt fs) (map (map (eel3 k s m)) cores).
