(** Model of the naive numbering of standard forms: objects/CSCG/_3d/forms/standard/base/numbering/Naive.py,
    objects/CSCG/_2d/forms/standard/base/numbering/Naive.py, and of the maps of node and edge elements
    (objects/CSCG/_3d/mesh/{node,edge}/elements/main.py), which are the numberings of a 0- and a 1-form of degree (1, 1, 1).
    The master numbers everything, core after core; exceptions (KeyError, failed assertions) are None. *)
From Coq Require Import List Arith Bool.
From Verif Require Import Prelude SpaceModel MeshModel MeshMapModel TraceModel.
Import ListNotations.

(** a place in the arrays of an element: component, index *)
Definition cell := (nat * list nat)%type.
Definition cell_eqb (x y : cell) : bool := (fst x =? fst y) && (if list_eq_dec Nat.eq_dec (snd x) (snd y) then true else false).
(** the list of arrays of an element, as its entries in C order, component after component; None is -1 *)
Definition farr := list (cell * option nat).
(** the three cases: 0-forms; 1-forms (in 2D inner); 2-forms (in 2D outer 1-forms) *)
Inductive nform := F0 | F1 | F2.
Definition shapes_of (k : nform) (p : list nat) : list (list nat) := match k with F0 => shapes0 p | F1 => shapes1 p | F2 => shapes2 p end.
(** the components passed on over a side of axis ax (3D: lines 213-229, 380-424, 523-542 of Naive.py; 2D: lines 210-236, 348-378, 499-527) *)
Definition passed (k : nform) (dim ax : nat) : list nat :=
  match k with F0 => [0] | F1 => filter (fun c => negb (c =? ax)) (seq 0 dim) | F2 => [ax] end.
(** the entries in C order and in F order *)
Definition cellsC (ss : list (list nat)) : list cell := flat_map (fun cs => map (pair (fst cs)) (idxC (snd cs))) (combine (seq 0 (length ss)) ss).
Definition cellsF (ss : list (list nat)) : list cell := flat_map (fun cs => map (pair (fst cs)) (all_idx (snd cs))) (combine (seq 0 (length ss)) ss).
(** -np.ones(shape) of every component *)
Definition blank (ss : list (list nat)) : farr := map (fun c => (c, None)) (cellsC ss).
(** the arrays of element 0: arange of every component in order 'F', from 0 on (lines 147-160 and the like) *)
Definition first_arr (ss : list (list nat)) : option farr :=
  match numbering ss with
  | Some nu => Some (map (fun c => (c, SpaceModel.entry nu (fst c) (snd c))) (cellsC ss))
  | None => None
  end.
(** the places equal to -1 get the next numbers, in C order, component after component (lines 162-183 and the like) *)
Fixpoint fill (n : nat) (a : farr) : nat * farr :=
  match a with
  | [] => (n, [])
  | (c, Some v) :: a' => let r := fill n a' in (fst r, (c, Some v) :: snd r)
  | (c, None) :: a' => let r := fill (n + 1) a' in (fst r, (c, Some n) :: snd r)
  end.
(** a[c][.., 0 or -1, ..] of the side (ax, up): the index along ax *)
Definition end_of (ss : list (list nat)) (c ax : nat) (up : bool) : nat := if up then nth ax (nth c ss []) 0 - 1 else 0.
(** ___PRIVATE_for_?Form_pass_element_side_numbering_from_to___: from side j of one element to the opposite side of the other *)
Definition pass_side (k : nform) (p : list nat) (from : farr) (j : nat) (to : farr) : farr :=
  let ss := shapes_of k p in let ax := j / 2 in let up := Nat.odd j in
  map (fun cv => let '((c, i), v) := cv in
    if mem c (passed k (length p) ax) && (nth ax i 0 =? end_of ss c ax (negb up))
    then ((c, i), match dget cell_eqb from (c, upd i ax (fun _ => end_of ss c ax up)) with Some w => w | None => None end)
    else ((c, i), v)) to.
(** lines 185-197: one neighbour of element e; numberingCache is [ca] *)
Definition one_neighbour (k : nform) (p : list nat) (e : nat) (ca : option (list (nat * farr))) (jw : nat * beside) : option (list (nat * farr)) :=
  match ca with
  | None => None
  | Some ca =>
      match snd jw with
      | Bd _ => Some ca
      | El f =>
          let ca := match dget Nat.eqb ca f with
                    | Some _ => ca
                    | None => if e <? f then dset Nat.eqb ca f (blank (shapes_of k p)) else ca
                    end in
          if e <? f then
            match dget Nat.eqb ca e, dget Nat.eqb ca f with
            | Some a, Some b => Some (dset Nat.eqb ca f (pass_side k p a (fst jw) b))
            | _, _ => None
            end
          else Some ca
      end
  end.
(** lines 145-197: one element; the state is currentNumber and numberingCache *)
Definition number_element (k : nform) (p : list nat) (st : option (nat * list (nat * farr))) (er : nat * list beside) : option (nat * list (nat * farr)) :=
  match st with
  | None => None
  | Some (n, ca) =>
      let st' :=
        if fst er =? 0 then
          match ca, first_arr (shapes_of k p) with
          | [], Some a => Some (n + nb (shapes_of k p), [(0, a)])
          | _, _ => None
          end
        else match dget Nat.eqb ca (fst er) with
             | Some a => let r := fill n a in Some (fst r, dset Nat.eqb ca (fst er) (snd r))
             | None => None
             end in
      match st' with
      | Some (n', ca') => option_map (pair n') (fold_left (one_neighbour k p (fst er)) (combine (seq 0 (length (snd er))) (snd er)) (Some ca'))
      | None => None
      end
  end.
(** the vector of an element: ravel('F') of every component (lines 207-211) *)
Definition vector (ss : list (list nat)) (a : farr) : option (list nat) := all_some (map (fun c => match dget cell_eqb a c with Some v => v | None => None end) (cellsF ss)).
(** a core: its elements in the order of element_indices; what is sent to it; then its elements are deleted (lines 138-204) *)
Definition number_core (k : nform) (p : list nat) (st : option (nat * list (nat * farr) * list (list (nat * list nat)))) (m : emap)
    : option (nat * list (nat * farr) * list (list (nat * list nat))) :=
  match st with
  | None => None
  | Some (n, ca, out) =>
      match fold_left (number_element k p) m (Some (n, ca)) with
      | Some (n', ca') =>
          match all_some (map (fun e => match dget Nat.eqb ca' e with
                                        | Some a => option_map (pair e) (vector (shapes_of k p) a)
                                        | None => None
                                        end) (map fst m)) with
          | Some gm => Some (n', fold_left (ddel Nat.eqb) (map fst m) ca', out ++ [gm])
          | None => None
          end
      | None => None
      end
  end.
(** the gathering matrices of the cores *)
Definition naive (k : nform) (p : list nat) (ms : list emap) : option (list (list (nat * list nat))) :=
  option_map snd (fold_left (number_core k p) ms (Some (0, [], []))).
(** the assertion at the beginning (lines 117-127): regions periodic to themselves have more than one element along every axis *)
Definition layouts_checked (lays : list (list nat)) (self : list bool) : bool :=
  forallb (fun ls => implb (snd ls) (forallb (fun n => 1 <? n) (fst ls))) (combine lays self).
(** region.whether.periodic_to_self (region/whether.py:15-36): [rmap r] what the sides of region r are beside *)
Definition periodic_to_self (bps : list (nat * nat)) (sides : list nat) : bool := existsb (fun b => mem (fst b) sides && mem (snd b) sides) bps.

(** 3-forms (in 2D 2-forms) and hybrid forms (lines 90-104, 108-115): range(i * numOfBasis, (i + 1) * numOfBasis) *)
Definition hybrid_numbering (nbasis : nat) (ms : list emap) : list (list (nat * list nat)) :=
  map (map (fun er => (fst er, seq (fst er * nbasis) ((fst er + 1) * nbasis - fst er * nbasis)))) ms.
(** numOfDofs: the number of different dofs of the core *)
Definition local_num (gm : list (nat * list nat)) : nat := length (nodup Nat.eq_dec (flat_map snd gm)).

(** node elements (mesh/node/elements/main.py:28-121: arrays of shape (2, 2, 2), 8 nodes) and edge elements
    (mesh/edge/elements/main.py:36-160: p = [1, 1, 1], 4 edges per component): the same steps as a 0-form and a 1-form of degree 1.
    GLOBAL_num: 1 + the maximum over the cores, -1 for a core without elements *)
Definition global_num (gms : list (list (nat * list nat))) : nat := maxl (map (fun gm => maxl (map (fun ev => maxl (map S (snd ev))) gm)) gms).
Definition node_elements (ms : list emap) : option (list (list (nat * list nat)) * nat) :=
  option_map (fun gms => (gms, global_num gms)) (naive F0 [1; 1; 1] ms).
(** assert MAX >= 4 *)
Definition edge_elements (ms : list emap) : option (list (list (nat * list nat)) * nat) :=
  match naive F1 [1; 1; 1] ms with
  | Some gms => if 4 <=? global_num gms then Some (gms, global_num gms) else None
  | None => None
  end.
