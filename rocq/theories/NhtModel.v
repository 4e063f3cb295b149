(** Model of the numbering of non-hybrid trace forms: ___Pr_nonhybrid_numbering___ of
    objects/CSCG/_3d/forms/trace/base/numbering/Naive.py:219-360 (used for k = 0, 1, 2), with local_dofs_on_element_side of
    objects/CSCG/_3d/forms/standard/base/numbering/do/find.py:37-117. Exceptions and failed assertions are None. *)
From Coq Require Import List Arith ZArith Bool.
From Verif Require Import Prelude RingSum AssembleModel SpaceModel MeshMapModel TraceModel NumModel.
Import ListNotations.

Definition zs (l : list nat) : list Z := map Z.of_nat l.
(** space.internal_local_dofs, and numbering.local_gathering of the trace form, by k *)
Definition internal_of (k : nform) (p : list nat) : option (list nat) := match k with F0 => internal0 p | F1 => internal1 p | F2 => internal2 p end.
Definition lg_of (k : nform) (p : list nat) : option (list (list Z)) := match k with F0 => lg0 p | F1 => lg1 p | F2 => lg2 p end.
(** surface_local_dofs (lines 253-259) *)
Definition surface_of (nbasis : nat) (int : list nat) : list nat := filter (fun i => negb (mem i int)) (seq 0 nbasis).
(** lines 266-284, the same at 291-307: one element; the state: ReNumberingArray, CN, number2 *)
Definition renumber_one (int surf : list nat) (st : option (list Z * nat * Z)) (v : list nat) : option (list Z * nat * Z) :=
  match st with
  | None => None
  | Some (R, CN, n2) =>
      match (if 0 <? length int then match np_take v (zs int) with Some g => np_put R (zs g) [(-1)%Z] | None => None end else Some R), np_take v (zs surf) with
      | Some R', Some g0 =>
          let g := filter (fun d => (n2 <? Z.of_nat d)%Z) g0 in
          if length g =? 0 then Some (R', CN, n2)
          else match np_put R' (zs g) (zs (seq CN (length g))), zmax (zs g) with
               | Some R'', Some m => Some (R'', CN + length g, m)
               | _, _ => None
               end
      | _, _ => None
      end
  end.
(** a core: its elements, then the array is sent to it *)
Definition renumber_core (int surf : list nat) (st : option (list Z * nat * Z * list (list Z))) (gm : list (nat * list nat)) : option (list Z * nat * Z * list (list Z)) :=
  match st with
  | None => None
  | Some (s, sent) =>
      match fold_left (fun st ev => renumber_one int surf st (snd ev)) gm (Some s) with
      | Some s' => Some (s', sent ++ [fst (fst s')])
      | None => None
      end
  end.
(** the arrays of the cores (rank 0 keeps the array when it is complete), after the assertion of lines 311-312.
    K is global_num_dofs, N the number of elements *)
Definition renumbering (int surf : list nat) (K N : nat) (gms : list (list (nat * list nat))) : option (list (list Z)) :=
  match fold_left (renumber_core int surf) gms (Some (repeat 0%Z K, 0, (-1)%Z, [])) with
  | Some (R, _, _, sent) =>
      match zmax R with
      | Some m => if (m + 1 =? Z.of_nat K - Z.of_nat N * Z.of_nat (length int))%Z then Some (match sent with [] => [] | _ :: l => R :: l end) else None
      | None => None
      end
  | None => None
  end.
(** local_dofs_on_element_side (find.py:51-117): the components with dofs on a side of axis ax, their faces in order 'F' *)
Definition side_comps (k : nform) (ax : nat) : list nat := match k with F0 => [0] | F1 => filter (fun c => negb (c =? ax)) (seq 0 3) | F2 => [ax] end.
Definition local_side (k : nform) (p : list nat) (s : nat * bool) : option (list nat) :=
  match numbering (shapes_of k p) with
  | Some ln => concat_some (map (fun c => match nth_error ln c with Some a => ravel a (side_sel (length (shp a)) s) | None => None end) (side_comps k (fst s)))
  | None => None
  end.
(** ReNumberingArray[local_GM[i]][sf_side_local_dofs] (line 337) *)
Definition side_values (k : nform) (p : list nat) (R : list Z) (v : list nat) (s : nat * bool) : option (list Z) :=
  match np_take R (zs v), local_side k p s with
  | Some rv, Some idx => np_take rv (zs idx)
  | _, _ => None
  end.
(** lines 332-343: one element of a core; GM_TEW and GM so far. GM_temp is a dict made before the loop; with six trace elements for
    every element all its entries are replaced. [L] is the local gathering; the keys NSWEBF are 0 .. 5 *)
Definition restrict_one (k : nform) (p : list nat) (L : list (list Z)) (R : list Z) (tm : list (nat * list nat))
    (st : option (list (nat * list Z) * list (nat * list Z) * list Z)) (ev : nat * list nat) :=
  match st with
  | None => None
  | Some (tew, gm, all) =>
      match dget Nat.eqb tm (fst ev) with
      | None => None
      | Some tes =>
          match all_some (map (fun ts => side_values k p R (snd ev) (snd ts)) (combine tes NSWEBF)) with
          | None => None
          | Some rows =>
              match VectorAssembler nat Nat.eqb ZR (combine (seq 0 (length L)) L) Replace (combine (seq 0 (length rows)) rows) with
              | None => None
              | Some g => Some (fold_left (fun d tr => dset Nat.eqb d (fst tr) (snd tr)) (combine tes rows) tew, gm ++ [(fst ev, g)], all ++ concat rows)
              end
          end
      end
  end.
(** a core: GM, GM_TEW, all_local_dofs (as a list); lines 332-345 *)
Definition restrict_core (k : nform) (p : list nat) (L : list (list Z)) (x : (list Z * list (nat * list nat)) * list (nat * list nat)) :=
  let '((R, gm), tm) := x in
  match fold_left (restrict_one k p L R tm) gm (Some ([], [], [])) with
  | Some (tew, g, all) => if existsb (Z.eqb (-1)) all then None else Some (g, tew, all)
  | None => None
  end.
(** all cores. [gms]: the gathering matrices of the non-hybrid form on the cores (asf.numbering.gathering); [tms]: the maps of their
    trace elements; GM.global_num_dofs is 1 + the maximum. The result: GM, GM_TEW, local_num_dofs of every core *)
Definition nonhybrid (k : nform) (p : list nat) (gms tms : list (list (nat * list nat))) : option (list (list (nat * list Z) * list (nat * list Z) * nat)) :=
  match internal_of k p, lg_of k p with
  | Some int, Some L =>
      let K := global_num gms in let N := length (concat gms) in
      match renumbering int (surface_of (nb (shapes_of k p)) int) K N gms with
      | None => None
      | Some Rs =>
          match SpaceModel.all_some (map (restrict_core k p L) (combine (combine Rs gms) tms)) with
          | None => None
          | Some outs =>
              let all := concat (map snd outs) in let G := (Z.of_nat K - Z.of_nat N * Z.of_nat (length int))%Z in
              match zmin all, zmax (flat_map snd (concat (map (fun o => fst (fst o)) outs))), zmax all with
              | Some mn, Some mg, Some mx =>
                  if (mn =? 0)%Z && (mg + 1 =? G)%Z && (mx =? mg)%Z && (Z.of_nat (length (nodup Z.eq_dec all)) =? mx + 1)%Z
                  then Some (map (fun o => (fst o, length (nodup Z.eq_dec (snd o)))) outs) else None
              | _, _, _ => None
              end
          end
      end
  | _, _ => None
  end.
