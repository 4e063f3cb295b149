(* Inner products with cross products of a scalar and a vector form, in 2D:
   objects/CSCG/_2d/forms/standard/_0_form/outer/special/helpers/
   cross_product_1_i_1.py and cross_product_1_i_1_2M0.py, _0_form/inner/special/
   helpers/cross_product_1_i_1.py (which is the same class), _2_form/inner/special/
   helpers/cross_product_1_i_1.py, and on triangles objects/miUsGrid/triangular/
   forms/standard/_0/base/do/helpers/_0x1_ip_1.py; the caches of triangular forms:
   mesh/elements/element/main.py, mesh/elements/main.py and
   forms/standard/base/main.py.  Conventions as in CrossModel, Rec2Model and
   TreconModel; caches by metric type of structured meshes are those of C89. *)
From Coq Require Import Reals List ZArith Arith Bool.
From Verif Require Import TfiModel CtModel DiscModel Disc2Model ReconModel CrossModel TriModel TdiscModel TreconModel Rec2Model.
Import ListNotations.
Open Scope R_scope.

Definition neg3 : arr3 -> arr3 := map (map (map Ropp)).
(* cross_product_1_i_1.py 75-79, 90-94 *)
Definition cp2 (w : list (list R)) (uv ab : list (list R) * list (list R)) (W : list R) (ni nj nk : nat) : arr3 :=
  match uv, ab with
  | (u, v), (a, b) => plus3 (neg3 (einsum4 w v a W ni nj nk)) (einsum4 w u b W ni nj nk)
  end.
(* quad_weights_1d * dJi; 56-59: xi.ravel('F') *)
Definition detW (r0 r1 : rule) (J : ejac2) : list R :=
  map2 Rmult (tweights r0 r1) (map (fun q => ct2_Jacobian (at2 J q)) (tmesh r0 r1)).
(* the scalar form: of degree 0 or 2 *)
Inductive skind := sk0 | sk2.
Definition rmw (k : skind) (s : Space2) (xi et : list R) (e : El2) : list (list R) :=
  match k with sk0 => r2rm0 s xi et | sk2 => r2rm2 s xi et e end.
(* spaces/base/num_basis.py *)
Definition numw (k : skind) (s : Space2) : nat :=
  match k with sk0 => ((pdeg (z0 s) + 1) * (pdeg (z1 s) + 1))%nat | sk2 => (pdeg (z0 s) * pdeg (z1 s))%nat end.
Definition numv (o : orient) (s : Space2) : nat := (fst (r2num o s) + snd (r2num o s))%nat.
(* one element; ou, oe: the orientations of u and e, which are not compared *)
Definition cross_2d (k : skind) (ou oe : orient) (sw su se : Space2) (r0 r1 : rule) (e : El2) : arr3 :=
  cp2 (rmw k sw (fst r0) (fst r1) e) (r2rm1 ou su (fst r0) (fst r1) e) (r2rm1 oe se (fst r0) (fst r1) e)
      (detW r0 r1 (el_J e)) (numw k sw) (numv ou su) (numv oe se).
(* _0x1_ip_1.py 82-95, cell c *)
Definition cross_tri (ou oe : orient) (Pw Pu Pe : Poly1) (M : smap) (r0 r1 : rule) (J : ejac2) (c : nat) : arr3 :=
  cp2 (trm0 Pw (fst r0) (fst r1)) (trm1 ou Pu M c (fst r0) (fst r1) J) (trm1 oe Pe M c (fst r0) (fst r1) J)
      (detW r0 r1 J) (tnb0 (pdeg Pw)) (tnb1 (pdeg Pu)) (tnb1 (pdeg Pe)).

(* ---------- mesh/elements/element/main.py 129-137: shape_indicator ---------- *)
(* '%.4f' % x: the sign and the number of the last decimals, of two nearest the
   even one; -0.0 is not told from 0.0 *)
Definition round_even (r : R) : Z :=
  let n := Int_part r in
  if Rlt_dec (frac_part r) (1 / 2) then n
  else if Rlt_dec (1 / 2) (frac_part r) then (n + 1)%Z
  else if Z.even n then n else (n + 1)%Z.
Definition fmt4 (x : R) : bool * Z := ((if Rlt_dec x 0 then true else false), round_even (10000 * Rabs x)).
(* the strings have four decimals each and can be told apart when joined *)
Definition shape_of (a b c : point) : list (bool * Z) :=
  [fmt4 (fst b - fst a); fmt4 (fst c - fst a); fmt4 (snd b - snd a); fmt4 (snd c - snd a)].
Definition corner (pts : list point) (cells : list tri) (c i : nat) : point := at_point pts (nth i (vertices (cell_at cells c)) 0%nat).
Definition shape (pts : list point) (cells : list tri) (c : nat) : list (bool * Z) :=
  shape_of (corner pts cells c 0) (corner pts cells c 1) (corner pts cells c 2).
Definition cellJ (pts : list point) (cells : list tri) (c : nat) : ejac2 :=
  tct_Jacobian_matrix (corner pts cells c 0) (corner pts cells c 1) (corner pts cells c 2).
(* mesh/elements/main.py 105-128 and 130-135: whether there are keys, for the
   cells els of the core: similarity >= 0.5 *)
Definition num_eqb (a b : bool * Z) : bool := Bool.eqb (fst a) (fst b) && Z.eqb (snd a) (snd b).
Fixpoint list_eqb {A} (eqb : A -> A -> bool) (a b : list A) : bool :=
  match a, b with
  | [], [] => true
  | x :: a', y :: b' => eqb x y && list_eqb eqb a' b'
  | _, _ => false
  end.
Definition shape_eqb := list_eqb num_eqb.
Fixpoint num_types (seen : list (list (bool * Z))) (l : list (list (bool * Z))) : nat :=
  match l with
  | [] => 0
  | x :: r => if existsb (shape_eqb x) seen then num_types seen r else S (num_types (x :: seen) r)
  end.
(* (1 - types / n) / (1 - 1 / n) >= 1 / 2 for n > 1, else 0 *)
Definition high_similarity (pts : list point) (cells : list tri) (els : list nat) : bool :=
  match els with
  | [] | [_] => false
  | _ => Nat.leb (length els - 1) (2 * (length els - num_types [] (map (shape pts cells) els)))
  end.
(* forms/standard/base/main.py 48-68: the key of 1-forms; _0/base/matrices and
   _2/base/matrices 39: of 0- and 2-forms *)
Definition tkey := (list (bool * Z) * list nat)%type.
Definition key_eqb (a b : tkey) : bool := shape_eqb (fst a) (fst b) && list_eqb Nat.eqb (snd a) (snd b).
Definition key1 (pts : list point) (cells : list tri) (M : smap) (o : orient) (c : nat) : tkey := (shape pts cells c, minus_edges o M c).
Definition key0 (pts : list point) (cells : list tri) (c : nat) : tkey := (shape pts cells c, []).

(* ---------- _0x1_ip_1.py 69-100; the same for the cached element-wise matrices ---------- *)
Section Cache.
Context {A : Type} (use : bool) (key : nat -> tkey) (compute : nat -> A).
Definition lookup (store : list (tkey * A)) (k : tkey) : option A :=
  match find (fun x => key_eqb k (fst x)) store with Some x => Some (snd x) | None => None end.
Definition realtime (store : list (tkey * A)) (c : nat) : A * list (tkey * A) :=
  if use then
    match lookup store (key c) with
    | Some a => (a, store)
    | None => (compute c, (key c, compute c) :: store)
    end
  else (compute c, store).
(* the arrays returned for a sequence of cells *)
Fixpoint requests (store : list (tkey * A)) (cs : list nat) : list A :=
  match cs with
  | [] => []
  | c :: r => let (a, store') := realtime store c in a :: requests store' r
  end.
End Cache.
(* _0x1_ip_1.py: the key is that of u *)
Definition cross_requests (pts : list point) (cells : list tri) (M : smap) (els : list nat) (ou oe : orient) (Pw Pu Pe : Poly1) (r0 r1 : rule) (cs : list nat) : list arr3 :=
  requests (high_similarity pts cells els) (key1 pts cells M ou) (fun c => cross_tri ou oe Pw Pu Pe M r0 r1 (cellJ pts cells c) c) [] cs.
(* _0, _1, _2 matrices/main.py 36-39: mass matrices *)
Definition mass0_requests (pts : list point) (cells : list tri) (els : list nat) (P : Poly1) (r0 r1 : rule) (cs : list nat) : list (list (list R)) :=
  requests (high_similarity pts cells els) (key0 pts cells) (fun c => tinner0 P P r0 r1 (cellJ pts cells c)) [] cs.
Definition mass1_requests (pts : list point) (cells : list tri) (M : smap) (els : list nat) (o : orient) (P : Poly1) (r0 r1 : rule) (cs : list nat) : list (list (list R)) :=
  requests (high_similarity pts cells els) (key1 pts cells M o) (fun c => tinner1 true o P P M c r0 r1 (cellJ pts cells c)) [] cs.
Definition mass2_requests (pts : list point) (cells : list tri) (els : list nat) (P : Poly1) (r0 r1 : rule) (cs : list nat) : list (list (list R)) :=
  requests (high_similarity pts cells els) (key0 pts cells) (fun c => tinner2 P P r0 r1 (cellJ pts cells c)) [] cs.
