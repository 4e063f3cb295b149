(* The triangular meshes of objects/miUsGrid/triangular: the function space
   (local numbering, incidence matrices), the construction of a mesh from cells
   and points, its boundaries, the numbering of standard forms, the transition
   matrices of 1-forms and the coboundary.  Points have real coordinates
   (rounding is not modelled); numbers are nat, or Z where the code uses -1.
   Dictionaries over all elements are lists; gathering to the master core and
   scattering back is not modelled here (C24, C64). *)
From Coq Require Import List Arith ZArith Bool Reals.
From Verif Require Import Prelude.
Import ListNotations.

(* ---------- space/local_numbering.py, space/num_basis.py ---------- *)
(* np.arange(s, ..).reshape((a, ..), order='F')[i, j] *)
Definition aF (s : Z) (a i j : nat) : Z := (s + Z.of_nat (i + j * a))%Z.
Inductive orient := Outer | Inner.
(* S0F 24-37: ln -= p; ln[:, 0] = 0 *)
Definition tln0 (p i j : nat) : Z := if j =? 0 then 0%Z else (aF 0 (p + 1) i j - Z.of_nat p)%Z.
(* S1F 40-63: LN_dy and LN_dx; LN_dx -= p; LN_dx[:, 0] = -1 *)
Definition tln_dy (o : orient) (p i j : nat) : Z :=
  match o with Outer => aF 0 (p + 1) i j | Inner => aF (Z.of_nat (p * p)) (p + 1) i j end.
Definition tln_dx (o : orient) (p i j : nat) : Z :=
  if j =? 0 then (-1)%Z
  else match o with
       | Outer => (aF (Z.of_nat (p * (p + 1))) p i j - Z.of_nat p)%Z
       | Inner => (aF 0 p i j - Z.of_nat p)%Z
       end.
(* S2F 66-75 *)
Definition tln2 (p i j : nat) : Z := aF 0 p i j.
(* num_basis.py *)
Definition tnb0 (p : nat) : nat := p * (p + 1) + 1.
Definition tnb1 (p : nat) : nat := p * p + p * (p + 1).
Definition tnb2 (p : nat) : nat := p * p.

(* ---------- space/incidence_matrix.py ---------- *)
(* for j in range(J): for i in range(I) *)
Definition grid (I J : nat) : list (nat * nat) := flat_map (fun j => map (fun i => (i, j)) (seq 0 I)) (seq 0 J).
(* numpy's negative indices *)
Definition wrap (n : nat) (k : Z) : Z := if (k <? 0)%Z then (k + Z.of_nat n)%Z else k.
(* E = np.zeros((nr, nc)), then E[r, c] = v in the order of the list *)
Definition filled (nr nc : nat) (ws : list (Z * Z * Z)) (r c : nat) : Z :=
  fold_left (fun x w => match w with (r', c', v) =>
    if ((wrap nr r' =? Z.of_nat r) && (wrap nc c' =? Z.of_nat c))%Z then v else x end) ws 0%Z.
(* rows of LN_dy: -1 at (i, j), +1 at (i, j+1) *)
Definition w_dy (o : orient) (p : nat) : list (Z * Z * Z) :=
  flat_map (fun ij => match ij with (i, j) =>
    let row := tln_dy o p i j in
    if (0 <=? row)%Z then [(row, tln0 p i j, (-1)%Z); (row, tln0 p i (j + 1), 1%Z)] else [] end) (grid (p + 1) p).
(* rows of LN_dx: outer +1 at (i, j), -1 at (i+1, j); inner -1, +1 *)
Definition w_dx (o : orient) (p : nat) : list (Z * Z * Z) :=
  flat_map (fun ij => match ij with (i, j) =>
    let row := tln_dx o p i j in
    if (0 <=? row)%Z then
      match o with
      | Outer => [(row, tln0 p i j, 1%Z); (row, tln0 p (i + 1) j, (-1)%Z)]
      | Inner => [(row, tln0 p i j, (-1)%Z); (row, tln0 p (i + 1) j, 1%Z)]
      end
    else [] end) (grid p (p + 1)).
(* S0F_Outer 25-45 (curl), S0F_Inner 49-69 (grad) *)
Definition tE0 (o : orient) (p : nat) : nat -> nat -> Z :=
  filled (tnb1 p) (tnb0 p) (match o with Outer => w_dy Outer p ++ w_dx Outer p | Inner => w_dx Inner p ++ w_dy Inner p end).
(* S1F_Outer 72-88 (div), S1F_Inner 91-106 (rot) *)
Definition tE1 (o : orient) (p : nat) : nat -> nat -> Z :=
  filled (tnb2 p) (tnb1 p) (flat_map (fun ij => match ij with (i, j) =>
    let row := tln2 p i j in
    let Left := tln_dx o p i j in
    (if (0 <=? Left)%Z then [(row, Left, match o with Outer => (-1)%Z | Inner => 1%Z end)] else []) ++
    [(row, tln_dx o p i (j + 1), match o with Outer => 1%Z | Inner => (-1)%Z end);
     (row, tln_dy o p i j, (-1)%Z);
     (row, tln_dy o p (i + 1) j, 1%Z)] end) (grid p p)).

(* ---------- forms/standard/base/numbering/do/find.py 44-117 ---------- *)
(* local_dofs_on_element_edge for k = 0 and k = 1; 0: D, 1: U, 2: R *)
Definition edge_dofs0 (p m : nat) : list Z :=
  match m with
  | 0 => map (tln0 p p) (seq 0 (p + 1))
  | 1 => map (tln0 p 0) (seq 0 (p + 1))
  | _ => map (fun i => tln0 p i p) (seq 0 (p + 1))
  end.
Definition edge_dofs1 (o : orient) (p m : nat) : list Z :=
  match m with
  | 0 => map (tln_dy o p p) (seq 0 p)
  | 1 => map (tln_dy o p 0) (seq 0 p)
  | _ => map (fun i => tln_dx o p i p) (seq 0 p)
  end.

(* ---------- mesh/construct/main.py ---------- *)
Definition point := (R * R)%type.
Definition tri := (nat * nat * nat)%type.
(* 78 *)
Definition orientation (p0 p1 p2 : point) : R :=
  ((snd p1 - snd p0) * (fst p2 - fst p1) - (fst p1 - fst p0) * (snd p2 - snd p1))%R.
(* 76-87; None: collinear points or a vertex without a point *)
Definition oriented (pts : list point) (t : tri) : option tri :=
  match t with
  | (a, b, c) =>
      match nth_error pts a, nth_error pts b, nth_error pts c with
      | Some p0, Some p1, Some p2 =>
          if Rlt_dec 0 (orientation p0 p1 p2) then Some (a, c, b)
          else if Rlt_dec (orientation p0 p1 p2) 0 then Some (a, b, c)
          else None
      | _, _, _ => None
      end
  end.
Fixpoint sequence {A} (l : list (option A)) : option (list A) :=
  match l with
  | [] => Some []
  | Some a :: l' => option_map (cons a) (sequence l')
  | None :: _ => None
  end.
Definition oriented_cells (pts : list point) (cells : list tri) : option (list tri) := sequence (map (oriented pts) cells).

(* an entry of the element map: None is '', Some (j, s, n) is str(j) + sign + str(n), s: the sign is '+' *)
Definition mark := option (nat * bool * nat).
Definition emap := list (list mark).
(* 97-99 *)
Definition tri_edges (t : tri) : list (nat * nat) :=
  match t with (v0, v1, v2) => [(v0, v1); (v0, v2); (v2, v1)] end.
(* 102-106 *)
Definition vertices (t : tri) : list nat := match t with (v0, v1, v2) => [v0; v1; v2] end.
Definition num_shared (t t' : tri) : nat :=
  length (filter (fun v => existsb (Nat.eqb v) (vertices t')) (vertices t)).
(* 109-115: the dict Tes, key n >= 0 as (true, n), -1, -2, -3 as (false, 0), (false, 1), (false, 2) *)
Definition tes (t : tri) : list (nat * nat * (bool * nat)) :=
  match t with
  | (v0, v1, v2) =>
      [((v0, v1), (true, 0)); ((v0, v2), (true, 1)); ((v2, v1), (true, 2));
       ((v1, v0), (false, 0)); ((v2, v0), (false, 1)); ((v1, v2), (false, 2))]
  end.
Definition pair_eqb (a b : nat * nat) : bool := (fst a =? fst b) && (snd a =? snd b).
(* 117-137: m, sign, n; when nothing matches both loops end with their last values *)
Fixpoint match_edges (m : nat) (es : list (nat * nat)) (t' : tri) : nat * (bool * nat) :=
  match es with
  | [] => (m - 1, (false, 2))
  | e :: es' =>
      match find (fun x => pair_eqb e (fst x)) (tes t') with
      | Some x => (m, snd x)
      | None => match_edges (m + 1) es' t'
      end
  end.
(* ELEMENT_MAP[i][m] = x *)
Definition set_mark (M : emap) (i m : nat) (x : mark) : emap := update M i (update (nth i M []) m x).
Definition cell_at (cells : list tri) (c : nat) : tri := nth c cells (0, 0, 0).
Definition no_empty (l : list mark) : bool := forallb (fun x => match x with Some _ => true | None => false end) l.
(* 101-152: for j in range(i+1, NUM_element); None: an exception *)
Fixpoint map_row (cells : list tri) (i : nat) (js : list nat) (M : emap) : option emap :=
  match js with
  | [] => Some M
  | j :: js' =>
      let k := num_shared (cell_at cells i) (cell_at cells j) in
      if k =? 2 then
        match match_edges 0 (tri_edges (cell_at cells i)) (cell_at cells j) with
        | (m, (s, n)) =>
            map_row cells i js' (set_mark (set_mark M i m (Some (j, s, n))) j n (Some (i, s, m)))
        end
      else if k <=? 1 then map_row cells i js' M
      else if no_empty (nth i M []) then Some M
      else None
  end.
Fixpoint map_rows (cells : list tri) (is : list nat) (M : emap) : option emap :=
  match is with
  | [] => Some M
  | i :: is' =>
      match map_row cells i (seq (i + 1) (length cells - (i + 1))) M with
      | Some M' => map_rows cells is' M'
      | None => None
      end
  end.
(* 90-152 *)
Definition element_map (cells : list tri) : option emap :=
  map_rows cells (seq 0 (length cells)) (map (fun _ => [None; None; None]) cells).

(* ---------- mesh/boundaries/main.py 46-98 ---------- *)
(* an entry of the element map after the boundaries are parsed: the name of a
   boundary (a number here), or the neighbour *)
Inductive side := SB (name : nat) | SI (other : nat) (s : bool) (n : nat).
Definition smap := list (list side).
Definition at_point (pts : list point) (v : nat) : point := nth v pts (0%R, 0%R).
(* 62-96; conditions: a dict of names and predicates *)
Definition parse_side (conds : list (nat * (point -> bool))) (pts : list point) (t : tri) (m : nat) (x : mark) : option side :=
  match x with
  | Some (j, s, n) => Some (SI j s n)
  | None =>
      match nth_error (tri_edges t) m with
      | None => None
      | Some (a, b) =>
          match filter (fun c => snd c (at_point pts a) && snd c (at_point pts b)) conds with
          | [c] => Some (SB (fst c))
          | _ => None
          end
      end
  end.
Definition parse_sides (conds : list (nat * (point -> bool))) (pts : list point) (t : tri) (l : list mark) : option (list side) :=
  sequence (map (fun mx => parse_side conds pts t (fst mx) (snd mx)) (combine (seq 0 (length l)) l)).
Definition parse_boundaries (conds : list (nat * (point -> bool))) (pts : list point) (cells : list tri) (M : emap) : option smap :=
  sequence (map (fun cl => parse_sides conds pts (fst cl) (snd cl)) (combine cells M)).
Definition side_at (M : smap) (c m : nat) : side := nth m (nth c M []) (SB 0).
(* _range_element_edge[name], of the elements of a core *)
Definition edges_on (M : smap) (els : list nat) (name : nat) : list (nat * nat) :=
  flat_map (fun c => flat_map (fun m => match side_at M c m with
    | SB b => if b =? name then [(c, m)] else [] | SI _ _ _ => [] end) (seq 0 3)) els.

(* ---------- forms/standard/base/numbering/Naive.py ---------- *)
Definition arr2 := nat -> nat -> Z.
Definition ones2 : arr2 := fun _ _ => (-1)%Z.
(* A[i, j] = f(i, j) where sel *)
Definition put (A : arr2) (sel : nat -> nat -> bool) (f : nat -> nat -> Z) : arr2 :=
  fun i j => if sel i j then f i j else A i j.
Definition znth (l : list Z) (k : nat) : Z := nth k l (-1)%Z.
(* np.arange(cur, cur + n) *)
Definition arange (cur n : nat) : list Z := map (fun k => Z.of_nat (cur + k)) (seq 0 n).
Definition flip (s : bool) (l : list Z) : list Z := if s then l else rev l.
(* 20-37 *)
Definition find0 (p : nat) (A : arr2) (m : nat) (s : bool) : list Z :=
  flip s (match m with
          | 0 => map (A p) (seq 1 (p - 1))
          | 1 => map (A 0) (seq 1 (p - 1))
          | _ => map (fun i => A i p) (seq 1 (p - 1))
          end).
(* [1:-1] of p + 1 entries *)
Definition mid (p k : nat) : bool := (1 <=? k) && (k <? p).
Definition sel0 (p m : nat) : nat -> nat -> bool :=
  match m with
  | 0 => fun i j => (i =? p) && mid p j
  | 1 => fun i j => (i =? 0) && mid p j
  | _ => fun i j => mid p i && (j =? p)
  end.
Definition along0 (m i j : nat) : nat := match m with 0 | 1 => j - 1 | _ => i - 1 end.
(* the state of the loop over the elements *)
Record nstate := mkN { cur : nat; pn : nat -> Z; arr : arr2 }.
(* 74-81, 138-145, 170-177: a vertex and its entries *)
Definition num_vertex (v : nat) (sel : nat -> nat -> bool) (st : nstate) : nstate :=
  if (pn st v =? -1)%Z then
    mkN (cur st + 1) (fun w => if w =? v then Z.of_nat (cur st) else pn st w)
        (put (arr st) sel (fun _ _ => Z.of_nat (cur st)))
  else mkN (cur st) (pn st) (put (arr st) sel (fun _ _ => pn st v)).
(* 83-104, 115-136, 147-168: the dofs of edge m without its ends *)
Definition num_edge0 (p : nat) (M : smap) (done : list arr2) (c m : nat) (st : nstate) : option nstate :=
  if 1 <? p then
    let fresh := mkN (cur st + (p - 1)) (pn st)
                     (put (arr st) (sel0 p m) (fun i j => znth (arange (cur st) (p - 1)) (along0 m i j))) in
    match side_at M c m with
    | SB _ => Some fresh
    | SI other s n =>
        if c <? other then Some fresh
        else if other <? c then
          Some (mkN (cur st) (pn st)
                    (put (arr st) (sel0 p m) (fun i j => znth (find0 p (nth other done ones2) n s) (along0 m i j))))
        else None
    end
  else Some st.
(* 106-113 *)
Definition num_inside0 (p : nat) (st : nstate) : nstate :=
  if 1 <? p then
    mkN (cur st + (p - 1) * (p - 1)) (pn st)
        (put (arr st) (fun i j => mid p i && mid p j) (fun i j => aF (Z.of_nat (cur st)) (p - 1) (i - 1) (j - 1)))
  else st.
Definition bind {A B} (x : option A) (f : A -> option B) : option B := match x with Some a => f a | None => None end.
(* 68-181, one element *)
Definition num_element0 (p : nat) (cells : list tri) (M : smap) (done : list arr2) (c cu : nat) (pnum : nat -> Z) : option nstate :=
  match cell_at cells c with
  | (v0, v1, v2) =>
      let st := num_vertex v0 (fun _ j => j =? 0) (mkN cu pnum ones2) in
      bind (num_edge0 p M done c 1 st) (fun st =>
      let st := num_inside0 p st in
      bind (num_edge0 p M done c 0 st) (fun st =>
      let st := num_vertex v2 (fun i j => (i =? 0) && (j =? p)) st in
      bind (num_edge0 p M done c 2 st) (fun st =>
      Some (num_vertex v1 (fun i j => (i =? p) && (j =? p)) st))))
  end.
Fixpoint num_elements0 (p : nat) (cells : list tri) (M : smap) (cs : list nat) (done : list arr2) (cu : nat) (pnum : nat -> Z)
    : option (list arr2 * nat) :=
  match cs with
  | [] => Some (done, cu)
  | c :: cs' =>
      bind (num_element0 p cells M done c cu pnum) (fun st =>
      num_elements0 p cells M cs' (done ++ [arr st]) (cur st) (pn st))
  end.
(* 43-202: the arrays of all elements and the number of dofs *)
Definition numbering0 (p : nat) (cells : list tri) (M : smap) : option (list arr2 * nat) :=
  num_elements0 p cells M (seq 0 (length cells)) [] 0 (fun _ => (-1)%Z).
(* A.ravel('F') of an array of shape (I, J) *)
Definition ravelF (I J : nat) (A : arr2) : list Z := map (fun ij => A (fst ij) (snd ij)) (grid I J).
(* 197 *)
Definition gathering0 (p : nat) (A : arr2) : list Z := A 0 0 :: ravelF (p + 1) p (fun i j => A i (j + 1)).
(* 208-216 *)
Definition gathering2 (p c : nat) : list Z := map Z.of_nat (seq (c * (p * p)) (p * p)).

(* 1-forms: numbering_dy of shape (p+1, p), numbering_dx of shape (p, p) *)
Record nstate1 := mkN1 { cur1 : nat; ady : arr2; adx : arr2 }.
(* 218-235 with the choice of DY or DX in 278-283 *)
Definition find1 (p : nat) (A : arr2 * arr2) (m : nat) (s : bool) : list Z :=
  flip s (match m with
          | 0 => map (fst A p) (seq 0 p)
          | 1 => map (fst A 0) (seq 0 p)
          | _ => map (fun i => snd A i (p - 1)) (seq 0 p)
          end).
Definition put_edge1 (p m : nat) (l : list Z) (n : nat) (st : nstate1) : nstate1 :=
  match m with
  | 0 => mkN1 n (put (ady st) (fun i j => (i =? p) && (j <? p)) (fun _ j => znth l j)) (adx st)
  | 1 => mkN1 n (put (ady st) (fun i j => (i =? 0) && (j <? p)) (fun _ j => znth l j)) (adx st)
  | _ => mkN1 n (ady st) (put (adx st) (fun i j => (i <? p) && (j =? p - 1)) (fun i _ => znth l i))
  end.
(* 263-286, 298-320, 329-354 and 422-447, 448-471, 481-503 *)
Definition num_edge1 (p : nat) (M : smap) (done : list (arr2 * arr2)) (c m : nat) (st : nstate1) : option nstate1 :=
  let fresh := put_edge1 p m (arange (cur1 st) p) (cur1 st + p) st in
  match side_at M c m with
  | SB _ => Some fresh
  | SI other s n =>
      if c <? other then Some fresh
      else if other <? c then Some (put_edge1 p m (find1 p (nth other done (ones2, ones2)) n s) (cur1 st) st)
      else None
  end.
(* 288-296, 473-479: numbering_dy[1:-1, :] *)
Definition num_dy (p : nat) (st : nstate1) : nstate1 :=
  if 1 <? p then
    mkN1 (cur1 st + p * (p - 1))
         (put (ady st) (fun i j => mid p i && (j <? p)) (fun i j => aF (Z.of_nat (cur1 st)) (p - 1) (i - 1) j)) (adx st)
  else st.
(* 322-327, 415-420: numbering_dx[:, :-1] *)
Definition num_dx (p : nat) (st : nstate1) : nstate1 :=
  if 1 <? p then
    mkN1 (cur1 st + p * (p - 1)) (ady st)
         (put (adx st) (fun i j => (i <? p) && (j <? p - 1)) (fun i j => aF (Z.of_nat (cur1 st)) p i j))
  else st.
(* 257-358 (outer), 409-507 (inner) *)
Definition num_element1 (o : orient) (p : nat) (M : smap) (done : list (arr2 * arr2)) (c cu : nat) : option nstate1 :=
  let st := mkN1 cu ones2 ones2 in
  match o with
  | Outer =>
      bind (num_edge1 p M done c 1 st) (fun st =>
      bind (num_edge1 p M done c 0 (num_dy p st)) (fun st =>
      num_edge1 p M done c 2 (num_dx p st)))
  | Inner =>
      bind (num_edge1 p M done c 2 (num_dx p st)) (fun st =>
      bind (num_edge1 p M done c 1 st) (fun st =>
      num_edge1 p M done c 0 (num_dy p st)))
  end.
Fixpoint num_elements1 (o : orient) (p : nat) (M : smap) (cs : list nat) (done : list (arr2 * arr2)) (cu : nat)
    : option (list (arr2 * arr2) * nat) :=
  match cs with
  | [] => Some (done, cu)
  | c :: cs' =>
      bind (num_element1 o p M done c cu) (fun st => num_elements1 o p M cs' (done ++ [(ady st, adx st)]) (cur1 st))
  end.
Definition numbering1 (o : orient) (p : nat) (M : smap) : option (list (arr2 * arr2) * nat) :=
  num_elements1 o p M (seq 0 (length M)) [] 0.
(* 382, 531 *)
Definition gathering1 (o : orient) (p : nat) (A : arr2 * arr2) : list Z :=
  match o with
  | Outer => ravelF (p + 1) p (fst A) ++ ravelF p p (snd A)
  | Inner => ravelF p p (snd A) ++ ravelF (p + 1) p (fst A)
  end.

(* ---------- forms/standard/_1/inner/IDT.py 22-43, _1/outer/IDT.py 21-49, _1/base/IDT.py 32-70 ---------- *)
(* the edges of element e whose dofs get a minus *)
Definition minus_edges (o : orient) (M : smap) (e : nat) : list nat :=
  filter (fun j => match side_at M e j with
    | SB _ => false
    | SI other s n =>
        match o with
        | Inner => negb s && (other <? e)
        | Outer => (other <? e) && ((n =? j) || (negb (j =? 1) && negb (n =? 1)))
        end
    end) (seq 0 3).
(* the diagonal of the transition matrix; elements without such edges have none,
   and nothing is multiplied, here a diagonal of ones *)
Definition transition (o : orient) (p : nat) (M : smap) (e k : nat) : Z :=
  if existsb (fun j => existsb (Z.eqb (Z.of_nat k)) (edge_dofs1 o p j)) (minus_edges o M e) then (-1)%Z else 1%Z.
(* forms/standard/base/coboundary.py 36-86: T @ E for 0-forms, E @ T for 1-forms *)
Definition incidence0 (o : orient) (p : nat) (M : smap) (e r c : nat) : Z := (transition o p M e r * tE0 o p r c)%Z.
Definition incidence1 (o : orient) (p : nat) (M : smap) (e r c : nat) : Z := (tE1 o p r c * transition o p M e c)%Z.
(* mesh/construct/main.py 69-, mesh/main.py: the cells in their final order of
   vertices and the map of their sides *)
Definition make_mesh (conds : list (nat * (point -> bool))) (pts : list point) (cells0 : list tri) : option (list tri * smap) :=
  bind (oriented_cells pts cells0) (fun cells =>
  bind (element_map cells) (fun E =>
  bind (parse_boundaries conds pts cells E) (fun M => Some (cells, M)))).
