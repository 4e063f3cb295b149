(** Model of the local (one element) numbering and topology of the spaces of
    objects/CSCG/_3d/spaces/base/{num_basis,local_numbering,incidence_matrix,trace_matrix,selective_matrix,
    local_gathering,internal_local_dofs,topological_connection/main}.py and
    objects/CSCG/_2d/spaces/base/{num_basis,local_numbering,incidence_matrix,trace_matrix}.py.
    numpy arrays are a shape and a function on index lists; exceptions (IndexError, ValueError of a shape mismatch,
    failed assertions) are None. [p] is the list of the polynomial degrees, [px; py; pz] or [px; py]. *)
From Coq Require Import List Arith ZArith Bool.
From Verif Require Import Prelude.
Import ListNotations.

(** * numpy *)
Record arr (A : Type) := mkArr { shp : list nat; at_ : list nat -> A }.
Arguments mkArr {A}. Arguments shp {A}. Arguments at_ {A}.

Fixpoint all_some {A} (l : list (option A)) : option (list A) :=
  match l with
  | [] => Some []
  | None :: _ => None
  | Some x :: l' => match all_some l' with Some r => Some (x :: r) | None => None end
  end.
(** np.prod *)
Definition prodl (l : list nat) : nat := fold_right Nat.mul 1 l.
(** [p[i] = f(p[i])] *)
Fixpoint upd (l : list nat) (i : nat) (f : nat -> nat) : list nat :=
  match l, i with
  | [], _ => []
  | x :: l', 0 => f x :: l'
  | x :: l', S i' => x :: upd l' i' f
  end.
(** is the index list within the shape *)
Fixpoint inb (s i : list nat) : bool :=
  match s, i with
  | [], [] => true
  | n :: s', x :: i' => (x <? n) && inb s' i'
  | _, _ => false
  end.
(** [a[i, j, k]] with non-negative indices; None: IndexError *)
Definition get {A} (a : arr A) (i : list nat) : option A := if inb (shp a) i then Some (at_ a i) else None.
(** position of an index in the order 'F' flattening *)
Fixpoint findex (s i : list nat) : nat :=
  match s, i with
  | n :: s', x :: i' => x + n * findex s' i'
  | _, _ => 0
  end.
(** [np.arange(n).reshape(s, order='F') + off]; None: the ValueError of reshape *)
Definition arangeF (n off : nat) (s : list nat) : option (arr nat) :=
  if n =? prodl s then Some (mkArr s (fun i => off + findex s i)) else None.
(** the index lists with the first axis running through the first list (fastest), and so on *)
Fixpoint prod_idx (ls : list (list nat)) : list (list nat) :=
  match ls with
  | [] => [[]]
  | l :: ls' => flat_map (fun r => map (fun i => i :: r) l) (prod_idx ls')
  end.
(** [for k in range(K): for j in range(J): for i in range(I)] *)
Definition all_idx (s : list nat) : list (list nat) := prod_idx (map (seq 0) s).
(** the basic indices used in /repo: [0], [-1], [:], [1:-1] *)
Inductive sel := Fst | Lst | All | Inn.
Definition idxs (s : sel) (n : nat) : option (list nat) :=
  match s with
  | Fst => if n =? 0 then None else Some [0]
  | Lst => if n =? 0 then None else Some [n - 1]
  | All => Some (seq 0 n)
  | Inn => Some (seq 1 (n - 2))
  end.
Fixpoint idxss (ss : list sel) (s : list nat) : option (list (list nat)) :=
  match ss, s with
  | [], [] => Some []
  | x :: ss', n :: s' => match idxs x n, idxss ss' s' with Some l, Some r => Some (l :: r) | _, _ => None end
  | _, _ => None
  end.
(** [a[ss].ravel('F')] *)
Definition ravel {A} (a : arr A) (ss : list sel) : option (list A) :=
  match idxss ss (shp a) with
  | Some ls => all_some (map (get a) (prod_idx ls))
  | None => None
  end.

(** integer matrices: [E = np.zeros((nr, nc), dtype=int)] followed by assignments [E[r, c] = v] in order;
    None: an IndexError *)
Notation write := (nat * nat * Z)%type (only parsing).
Definition setm (m : nat -> nat -> Z) (w : write) : nat -> nat -> Z :=
  let '(r, c, v) := w in fun i j => if (i =? r) && (j =? c) then v else m i j.
Definition build (nr nc : nat) (ws : list write) : option (nat -> nat -> Z) :=
  if forallb (fun w => (fst (fst w) <? nr) && (snd (fst w) <? nc)) ws
  then Some (fold_left setm ws (fun _ _ => 0%Z)) else None.
(** [E[rows, cols] = v] with index lists of equal length *)
Definition assign (rows cols : option (list nat)) (v : Z) : option (list write) :=
  match rows, cols with
  | Some rs, Some cs =>
      if length rs =? length cs then Some (map (fun rc => (fst rc, snd rc, v)) (combine rs cs)) else None
  | _, _ => None
  end.
Definition concat_some {A} (l : list (option (list A))) : option (list A) :=
  option_map (@concat A) (all_some l).
(** np.vstack of the matrices with the given numbers of rows *)
Fixpoint vstack (bs : list (nat * (nat -> nat -> Z))) (r c : nat) : Z :=
  match bs with
  | [] => 0%Z
  | (n, M) :: bs' => if r <? n then M r c else vstack bs' (r - n) c
  end.

(** * num_basis.py and local_numbering.py *)
(** shapes of the components: [p[i] -= 1] on the p+1, resp. [p[i] += 1] on the p
    (_3d num_basis.py:140-175, local_numbering.py:380-412; _2d num_basis.py:15-67, local_numbering.py:17-55) *)
Definition shapes0 (p : list nat) : list (list nat) := [map (fun x => x + 1) p].
Definition shapes1 (p : list nat) : list (list nat) :=
  map (fun i => upd (map (fun x => x + 1) p) i (fun x => x - 1)) (seq 0 (length p)).
Definition shapes2 (p : list nat) : list (list nat) :=
  map (fun i => upd p i (fun x => x + 1)) (seq 0 (length p)).
Definition shapes3 (p : list nat) : list (list nat) := [p].
(** _basis_components_ and _basis_ of _3dCSCG_0Form .. _3dCSCG_3Form (num_basis.py:140-175) and of the six 2D forms *)
Definition nbc (shapes : list (list nat)) : list nat := map prodl shapes.
Definition nb (shapes : list (list nat)) : nat := sum (nbc shapes).
(** local numbering: component i is arange(component i).reshape(shape i, order='F') + the number of basis functions
    of the components before (local_numbering.py:380-412); [off] is that running sum [_I] *)
Fixpoint number_from (off : nat) (ns : list nat) (shapes : list (list nat)) : option (list (arr nat)) :=
  match ns, shapes with
  | [], [] => Some []
  | n :: ns', s :: shapes' =>
      match arangeF n off s, number_from (off + n) ns' shapes' with
      | Some a, Some r => Some (a :: r)
      | _, _ => None
      end
  | _, _ => None
  end.
Definition numbering (shapes : list (list nat)) : option (list (arr nat)) := number_from 0 (nbc shapes) shapes.
(** [local_numbering[c][i, j, k]] *)
Definition entry (arrs : list (arr nat)) (c : nat) (i : list nat) : option nat :=
  match nth_error arrs c with Some a => get a i | None => None end.

(** * incidence_matrix.py *)
(** one line [E[dn[d][i, j, k], sn[c][.. + 1 ..]] = v] : source component c, the axis with +1 (if any), value *)
Definition line := (nat * option nat * Z)%type.
Definition bump (b : option nat) (i : list nat) : list nat :=
  match b with None => i | Some ax => upd i ax (fun x => x + 1) end.
Definition line_write (sn : list (arr nat)) (d : arr nat) (i : list nat) (l : line) : option write :=
  let '(c, b, v) := l in
  match get d i, nth_error sn c with
  | Some r, Some s => match get s (bump b i) with Some k => Some (r, k, v) | None => None end
  | _, _ => None
  end.
(** E = zeros(#destination, #source); for every component of the destination the loops over its shape *)
Definition incidence (ssrc sdst : list (list nat)) (tab : list (list line)) : option (nat -> nat -> Z) :=
  match numbering ssrc, numbering sdst with
  | Some sn, Some dn =>
      match all_some (flat_map (fun dt => flat_map (fun i => map (line_write sn (fst dt) i) (snd dt))
                                                   (all_idx (shp (fst dt)))) (combine dn tab)) with
      | Some ws => build (nb sdst) (nb ssrc) ws
      | None => None
      end
  | _, _ => None
  end.
(** _3d incidence_matrix.py:31-58, 60-93, 95-117 *)
Definition tab10 : list (list line) :=
  [ [(0, None, (-1)%Z); (0, Some 0, 1%Z)];
    [(0, None, (-1)%Z); (0, Some 1, 1%Z)];
    [(0, None, (-1)%Z); (0, Some 2, 1%Z)] ].
Definition tab21 : list (list line) :=
  [ [(1, None, 1%Z); (1, Some 2, (-1)%Z); (2, None, (-1)%Z); (2, Some 1, 1%Z)];
    [(0, None, (-1)%Z); (0, Some 2, 1%Z); (2, None, 1%Z); (2, Some 0, (-1)%Z)];
    [(0, None, 1%Z); (0, Some 1, (-1)%Z); (1, None, (-1)%Z); (1, Some 0, 1%Z)] ].
Definition tab32 : list (list line) :=
  [ [(0, None, (-1)%Z); (0, Some 0, 1%Z); (1, None, (-1)%Z); (1, Some 1, 1%Z); (2, None, (-1)%Z); (2, Some 2, 1%Z)] ].
Definition E10 (p : list nat) := incidence (shapes0 p) (shapes1 p) tab10.
Definition E21 (p : list nat) := incidence (shapes1 p) (shapes2 p) tab21.
Definition E32 (p : list nat) := incidence (shapes2 p) (shapes3 p) tab32.
(** _2d incidence_matrix.py:28-48 (inner 0), 50-63 (inner 1), 65-86 (outer 0), 88-104 (outer 1) *)
Definition tabI10 : list (list line) :=
  [ [(0, None, (-1)%Z); (0, Some 0, 1%Z)]; [(0, None, (-1)%Z); (0, Some 1, 1%Z)] ].
Definition tabI21 : list (list line) :=
  [ [(0, None, 1%Z); (0, Some 1, (-1)%Z); (1, None, (-1)%Z); (1, Some 0, 1%Z)] ].
Definition tabO10 : list (list line) :=
  [ [(0, None, (-1)%Z); (0, Some 1, 1%Z)]; [(0, None, 1%Z); (0, Some 0, (-1)%Z)] ].
Definition tabO21 : list (list line) :=
  [ [(1, None, (-1)%Z); (1, Some 1, 1%Z); (0, None, (-1)%Z); (0, Some 0, 1%Z)] ].
Definition EI10 (p : list nat) := incidence (shapes0 p) (shapes1 p) tabI10.
Definition EI21 (p : list nat) := incidence (shapes1 p) (shapes3 p) tabI21.
Definition EO10 (p : list nat) := incidence (shapes0 p) (shapes2 p) tabO10.
Definition EO21 (p : list nat) := incidence (shapes2 p) (shapes3 p) tabO21.

(** * trace_matrix.py and selective_matrix.py *)
(** 3D sides in the order 'NSWEBF', 2D sides in the order 'UDLR': the axis and which end *)
Notation side := (nat * bool)%type (only parsing).
Definition NSWEBF : list side := [(0, false); (0, true); (1, false); (1, true); (2, false); (2, true)].
Definition UDLR : list side := [(0, false); (0, true); (1, false); (1, true)].
(** [0, :, :] for N, [-1, :, :] for S, ... : the index of that side *)
Definition side_sel (dim : nat) (s : side) : list sel :=
  map (fun ax => if ax =? fst s then (if snd s then Lst else Fst) else All) (seq 0 dim).
(** - on N, W, B and + on S, E, F (trace_matrix.py:55-60, 86-107, 129-134); all + in selective_matrix.py *)
Definition outward (s : side) : Z := if snd s then 1%Z else (-1)%Z.
Definition plus (s : side) : Z := 1%Z.
(** _3dCSCG_0Trace, 1Trace, 2Trace onsides (num_basis.py:59-137) *)
Definition onsides (f : nat -> nat -> nat) (p : list nat) : list nat :=
  match p with
  | [px; py; pz] => [f py pz; f py pz; f px pz; f px pz; f px py; f px py]
  | _ => []
  end.
Definition on0 (a b : nat) : nat := (a + 1) * (b + 1).
Definition on1 (a b : nat) : nat := a * (b + 1) + (a + 1) * b.
Definition on2 (a b : nat) : nat := a * b.
(** [_basis_hybrid_True_] *)
Definition ntrace (f : nat -> nat -> nat) (p : list nat) : nat :=
  match p with
  | [px; py; pz] => 2 * (f py pz + f px pz + f px py)
  | _ => 0
  end.
(** ___generate_gathering_hybrid_element___ (trace_matrix.py:149-158) *)
Fixpoint ranges (off : nat) (ns : list nat) : list (list nat) :=
  match ns with
  | [] => []
  | n :: ns' => seq off n :: ranges (off + n) ns'
  end.
(** 0- and 2-trace (trace_matrix.py:44-73, 118-147; selective_matrix.py:149-175, 218-245; 2D trace_matrix.py):
    [comp s] is the component of the local numbering read on side s. The result N = PU.T *)
Definition trace_PU (shapes : list (list nat)) (ntr : nat) (sides : list side) (ns : list nat)
    (comp : side -> nat) (sg : side -> Z) : option (nat -> nat -> Z) :=
  match numbering shapes with
  | Some ln =>
      match concat_some (map (fun sr => match nth_error ln (comp (fst sr)) with
                                        | Some a => assign (ravel a (side_sel (length (shp a)) (fst sr)))
                                                           (Some (snd sr)) (sg (fst sr))
                                        | None => None
                                        end) (combine sides (ranges 0 ns))) with
      | Some ws => match build (nb shapes) ntr ws with
                   | Some PU => Some (fun r c => PU c r)
                   | None => None
                   end
      | None => None
      end
  | None => None
  end.
Definition trace0 (sg : side -> Z) (p : list nat) :=
  trace_PU (shapes0 p) (ntrace on0 p) NSWEBF (onsides on0 p) (fun _ => 0) sg.
Definition trace2 (sg : side -> Z) (p : list nat) :=
  trace_PU (shapes2 p) (ntrace on2 p) NSWEBF (onsides on2 p) (fun s => fst s) sg.
(** the side matrices N_[i] = N[m : m + nbt[i], :] (trace_matrix.py:62-68) *)
Fixpoint blocks (m : nat) (ns : list nat) (N : nat -> nat -> Z) : list (nat -> nat -> Z) :=
  match ns with
  | [] => []
  | n :: ns' => (fun r c => N (m + r) c) :: blocks (m + n) ns' N
  end.
(** 1-trace (trace_matrix.py:75-115, selective_matrix.py:177-216): on side s the two components of the 1-form
    tangential to it, numbered by the local numbering of the 1-trace (local_numbering.py:159-176), which is that of
    a 1-form in the two tangential degrees *)
Definition tang (s : side) : list nat := filter (fun ax => negb (ax =? fst s)) [0; 1; 2].
Definition lnt1 (p : list nat) (s : side) : option (list (arr nat)) :=
  match p with
  | [px; py; pz] =>
      let '(a, b) := match fst s with 0 => (py, pz) | 1 => (px, pz) | _ => (px, py) end in
      number_from 0 [a * (b + 1); (a + 1) * b] [[a; b + 1]; [a + 1; b]]
  | _ => None
  end.
Definition block1 (sg : side -> Z) (p : list nat) (s : side) (n : nat) : option (nat -> nat -> Z) :=
  match numbering (shapes1 p), lnt1 p s with
  | Some ln, Some lt =>
      match concat_some (map (fun tc => match nth_error ln (snd tc) with
                                        | Some a => assign (ravel (fst tc) [All; All])
                                                           (ravel a (side_sel (length (shp a)) s)) (sg s)
                                        | None => None
                                        end) (combine lt (tang s))) with
      | Some ws => build n (nb (shapes1 p)) ws
      | None => None
      end
  | _, _ => None
  end.
Definition trace1 (sg : side -> Z) (p : list nat) : option (nat -> nat -> Z) :=
  match all_some (map (fun sn => option_map (pair (snd sn)) (block1 sg p (fst sn) (snd sn)))
                      (combine NSWEBF (onsides on1 p))) with
  | Some bs => Some (vstack bs)
  | None => None
  end.
(** 2D, _2dCSCG_1Trace_Outer (trace_matrix.py:94-120): + on U, - on D, - on L, + on R. The three other 2D trace
    matrices read attributes of num_basis which do not exist (trace_matrix.py:33, 53, 74) and raise. *)
Definition sgO (s : side) : Z :=
  match s with (0, false) => 1%Z | (0, true) => (-1)%Z | (_, false) => (-1)%Z | (_, true) => 1%Z end.
Definition traceO (p : list nat) : option (nat -> nat -> Z) :=
  match p with
  | [px; py] => trace_PU (shapes2 p) (2 * (py + px)) UDLR [py; py; px; px] (fun s => fst s) sgO
  | _ => None
  end.

(** * selective_matrix.py: edge forms (lines 32-146) *)
(** the twelve edges WB EB WF EF NB SB NF SF NW SW NE SE as the index read in the local numbering: the axis along
    which the edge runs has [:]. *)
Definition edges12 : list (list sel) :=
  [ [All; Fst; Fst]; [All; Lst; Fst]; [All; Fst; Lst]; [All; Lst; Lst];
    [Fst; All; Fst]; [Lst; All; Fst]; [Fst; All; Lst]; [Lst; All; Lst];
    [Fst; Fst; All]; [Lst; Fst; All]; [Fst; Lst; All]; [Lst; Lst; All] ].
(** number of the edge's dofs: p + 1 (0-edge), p (1-edge) of its axis *)
Fixpoint edge_axis (e : list sel) : nat :=
  match e with
  | All :: _ => 0
  | _ :: e' => S (edge_axis e')
  | [] => 0
  end.
Definition edge_block (shapes : list (list nat)) (n comp : nat) (e : list sel) : option (nat -> nat -> Z) :=
  match numbering shapes with
  | Some ln => match nth_error ln comp with
               | Some a => match assign (Some (seq 0 n)) (ravel a e) 1 with
                           | Some ws => build n (nb shapes) ws
                           | None => None
                           end
               | None => None
               end
  | None => None
  end.
Definition edge_sel (shapes : list (list nat)) (comp : nat -> nat) (num : nat -> option nat)
    : option (nat -> nat -> Z) :=
  match all_some (map (fun e => match num (edge_axis e) with
                                | Some n => option_map (pair n) (edge_block shapes n (comp (edge_axis e)) e)
                                | None => None
                                end) edges12) with
  | Some bs => Some (vstack bs)
  | None => None
  end.
Definition edge0 (p : list nat) := edge_sel (shapes0 p) (fun _ => 0) (fun ax => option_map (fun x => x + 1) (nth_error p ax)).
Definition edge1 (p : list nat) := edge_sel (shapes1 p) (fun ax => ax) (nth_error p).
(** local_numbering.py:70-108, 110-146: the mesh element wise dofs of the m-th edge of the list above;
    P = (px+1, py+1, pz+1) for 0-edge, (px, py, pz) for 1-edge forms *)
Definition edge_dofs (P : list nat) (m : nat) : option (list nat) :=
  match P with
  | [a; b; c] =>
      if m <? 4 then Some (map (fun x => x + a * m) (seq 0 a))
      else if m <? 8 then Some (map (fun x => x + a * 4 + b * (m - 4)) (seq 0 b))
      else if m <? 12 then Some (map (fun x => x + a * 4 + b * 4 + c * (m - 8)) (seq 0 c))
      else None
  | _ => None
  end.

(** * internal_local_dofs.py *)
(** 0-form lines 20-24, 1-form 26-35 *)
Definition internal0 (p : list nat) : option (list nat) :=
  match numbering (shapes0 p) with Some [a] => ravel a [Inn; Inn; Inn] | _ => None end.
Definition internal1 (p : list nat) : option (list nat) :=
  match numbering (shapes1 p) with
  | Some [a; b; c] => concat_some [ravel a [All; Inn; Inn]; ravel b [Inn; All; Inn]; ravel c [Inn; Inn; All]]
  | _ => None
  end.
(** 2-form lines 37-55: components of degree 1 are skipped; np.concatenate([]) raises ValueError *)
Definition internal2 (p : list nat) : option (list nat) :=
  match p, numbering (shapes2 p) with
  | [p0; p1; p2], Some [a; b; c] =>
      match (if p0 =? 1 then [] else [ravel a [Inn; All; All]]) ++ (if p1 =? 1 then [] else [ravel b [All; Inn; All]])
            ++ (if p2 =? 1 then [] else [ravel c [All; All; Inn]]) with
      | [] => None
      | l => concat_some l
      end
  | _, _ => None
  end.

(** * local_gathering.py *)
(** an int array under construction, [- np.ones(shape)] with assignments *)
Definition set_at (f : list nat -> Z) (w : list nat * nat) : list nat -> Z :=
  fun i => if list_eq_dec Nat.eq_dec i (fst w) then Z.of_nat (snd w) else f i.
(** the shape of a[ss]: the axes not fixed by an integer *)
Fixpoint sub_shape (ss : list sel) (ls : list (list nat)) : list nat :=
  match ss, ls with
  | s :: ss', l :: ls' =>
      match s with Fst | Lst => sub_shape ss' ls' | _ => length l :: sub_shape ss' ls' end
  | _, _ => []
  end.
(** [a[ss] = np.arange(cn, cn + n).reshape(dims, order='F')]; then cn += n *)
Definition fill (st : option (arr Z * nat)) (f : list sel * nat * list nat) : option (arr Z * nat) :=
  let '(ss, n, dims) := f in
  match st with
  | Some (a, cn) =>
      match idxss ss (shp a) with
      | Some ls =>
          if (n =? prodl dims) && (if list_eq_dec Nat.eq_dec dims (sub_shape ss ls) then true else false)
          then Some (mkArr (shp a) (fold_left set_at (combine (prod_idx ls) (seq cn n)) (at_ a)), cn + n)
          else None
      | None => None
      end
  | None => None
  end.
Definition minus_ones (s : list nat) : arr Z := mkArr s (fun _ => (-1)%Z).
(** [assert -1 not in local_gathering[side]] *)
Definition no_minus (l : option (list Z)) : option (list Z) :=
  match l with Some l => if existsb (Z.eqb (-1)) l then None else Some l | None => None end.
(** _3dCSCG_0Trace (lines 20-51); the sides in the order NSWEBF *)
Definition lg0_fills (px py pz : nat) : list (list sel * nat * list nat) :=
  [ ([Fst; All; All], (py+1)*(pz+1), [py+1; pz+1]);
    ([Lst; All; All], (py+1)*(pz+1), [py+1; pz+1]);
    ([Inn; Fst; All], (px-1)*(pz+1), [px-1; pz+1]);
    ([Inn; Lst; All], (px-1)*(pz+1), [px-1; pz+1]);
    ([Inn; Inn; Fst], (px-1)*(py-1), [px-1; py-1]);
    ([Inn; Inn; Lst], (px-1)*(py-1), [px-1; py-1]) ].
Definition lg0 (p : list nat) : option (list (list Z)) :=
  match p with
  | [px; py; pz] =>
      match fold_left fill (lg0_fills px py pz) (Some (minus_ones [px+1; py+1; pz+1], 0)) with
      | Some (a, _) => all_some (map (fun s => no_minus (ravel a (side_sel 3 s))) NSWEBF)
      | None => None
      end
  | _ => None
  end.
(** _3dCSCG_1Trace (lines 53-98) *)
Definition lg1x (px py pz : nat) : list (list sel * nat * list nat) :=
  [ ([All; Fst; All], px*(pz+1), [px; pz+1]);
    ([All; Lst; All], px*(pz+1), [px; pz+1]);
    ([All; Inn; Fst], px*(py-1), [px; py-1]);
    ([All; Inn; Lst], px*(py-1), [px; py-1]) ].
Definition lg1y (px py pz : nat) : list (list sel * nat * list nat) :=
  [ ([Fst; All; All], py*(pz+1), [py; pz+1]);
    ([Lst; All; All], py*(pz+1), [py; pz+1]);
    ([Inn; All; Fst], py*(px-1), [px-1; py]);
    ([Inn; All; Lst], py*(px-1), [px-1; py]) ].
Definition lg1z (px py pz : nat) : list (list sel * nat * list nat) :=
  [ ([Fst; All; All], pz*(py+1), [py+1; pz]);
    ([Lst; All; All], pz*(py+1), [py+1; pz]);
    ([Inn; Fst; All], pz*(px-1), [px-1; pz]);
    ([Inn; Lst; All], pz*(px-1), [px-1; pz]) ].
Definition lg1 (p : list nat) : option (list (list Z)) :=
  match p with
  | [px; py; pz] =>
      match fold_left fill (lg1x px py pz) (Some (minus_ones [px; py+1; pz+1], 0)) with
      | Some (dx, cn) =>
      match fold_left fill (lg1y px py pz) (Some (minus_ones [px+1; py; pz+1], cn)) with
      | Some (dy, cn) =>
      match fold_left fill (lg1z px py pz) (Some (minus_ones [px+1; py+1; pz], cn)) with
      | Some (dz, _) =>
          all_some (map (fun s => no_minus
              (concat_some (map (fun ax => match ax with 0 => ravel dx (side_sel 3 s)
                                                       | 1 => ravel dy (side_sel 3 s)
                                                       | _ => ravel dz (side_sel 3 s) end) (tang s)))) NSWEBF)
      | None => None
      end
      | None => None
      end
      | None => None
      end
  | _ => None
  end.
(** _3dCSCG_2Trace (lines 100-119) *)
Definition lg2 (p : list nat) : option (list (list Z)) :=
  match p with
  | [px; py; pz] =>
      all_some (map (fun l => no_minus (Some (map Z.of_nat l))) (ranges 0 [py*pz; py*pz; px*pz; px*pz; px*py; px*py]))
  | _ => None
  end.
(** the advertised numbers of non-hybrid trace dofs (num_basis.py:64-70, 96-101, 125-137) as integers *)
Definition nt0_nonhybrid (p : list nat) : Z :=
  match p with
  | [px; py; pz] => (Z.of_nat (ntrace on0 p) - 8 * 2 - (Z.of_nat px - 1) * 4 - (Z.of_nat py - 1) * 4
                     - (Z.of_nat pz - 1) * 4)%Z
  | _ => 0%Z
  end.
Definition nt1_nonhybrid (p : list nat) : Z :=
  match p with
  | [px; py; pz] => (Z.of_nat (ntrace on1 p) - Z.of_nat px * 4 - Z.of_nat py * 4 - Z.of_nat pz * 4)%Z
  | _ => 0%Z
  end.
Definition nt2_nonhybrid (p : list nat) : Z := Z.of_nat (ntrace on2 p).

(** * topological_connection/main.py:69-146 *)
(** [T[rows_s, cols_s] = sign] for the six sides in turn; rows are the numbers of local_gathering *)
Definition connect (nr nc : nat) (rows : list (list Z)) (cols : list (option (list nat))) : option (nat -> nat -> Z) :=
  match concat_some (map (fun x => assign (Some (map Z.to_nat (fst (snd x)))) (snd (snd x)) (outward (fst x)))
                         (combine NSWEBF (combine rows cols))) with
  | Some ws => build nr nc ws
  | None => None
  end.
(** T_ltf_sf: the columns are the local dofs of the standard form on that side *)
Definition T_ltf_sf (shapes : list (list nat)) (comp : side -> nat) (ntr : Z) (lg : option (list (list Z)))
    : option (nat -> nat -> Z) :=
  match lg, numbering shapes with
  | Some rows, Some ln =>
      connect (Z.to_nat ntr) (nb shapes) rows
        (map (fun s => match nth_error ln (comp s) with
                       | Some a => ravel a (side_sel (length (shp a)) s)
                       | None => None
                       end) NSWEBF)
  | _, _ => None
  end.
(** T_ltf_tf: the columns are the dofs of the non-hybrid trace form, numbered by the same local gathering *)
Definition T_ltf_tf (ntr : Z) (lg : option (list (list Z))) : option (nat -> nat -> Z) :=
  match lg with
  | Some rows => connect (Z.to_nat ntr) (Z.to_nat ntr) rows (map (fun l => Some (map Z.to_nat l)) rows)
  | None => None
  end.
Definition connect0 (p : list nat) :=
  (T_ltf_sf (shapes0 p) (fun _ => 0) (nt0_nonhybrid p) (lg0 p), T_ltf_tf (nt0_nonhybrid p) (lg0 p)).
Definition connect2 (p : list nat) :=
  (T_ltf_sf (shapes2 p) (fun s => fst s) (nt2_nonhybrid p) (lg2 p), T_ltf_tf (nt2_nonhybrid p) (lg2 p)).
