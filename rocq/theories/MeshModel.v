(** Model of the element layout, distribution and numbering of a 3D mesh: objects/CSCG/base/mesh/base.py and
    objects/CSCG/_3d/mesh/main.py. Regions are the numbers 0 .. nrs - 1 in the order of regions.names.
    Exceptions and failed assertions are None; arrays are those of SpaceModel. *)
From Coq Require Import List Arith Bool ZArith.
From Verif Require Import Prelude SpaceModel MiscModel.
Import ListNotations.

(** * element distribution (base/mesh/base.py:124-417) *)
(** [[n // k + (1 if x < n % k else 0) for x in range(k)]] *)
Definition evenly (n k : nat) : list nat := map (fun x => n / k + (if x <? n mod k then 1 else 0)) (seq 0 k).
(** l[i] for a list filled for all cores (a missing key cannot occur) *)
Definition at_core (l : list nat) (i : nat) : nat := nth i l 0.
Definition master : nat := 0.
(** root/config: the secretary is core 1 if there is one *)
Definition secretary (SIZE : nat) : nat := if 2 <=? SIZE then 1 else 0.

Inductive edm := Default | Chaotic | FewCores | SWV0.
(** the EDM argument: None, 'debug', 'SWV0', 'chaotic', anything else *)
Inductive edm_arg := ArgNone | ArgDebug | ArgSWV0 | ArgChaotic | ArgOther.
(** ___PRIVATE_BASE_decide_EDM___ (lines 124-164); [equal] : _REDT_ == 'equal', computed in floating point, an input *)
Definition decide_EDM (a : edm_arg) (equal : bool) (SIZE nrs : nat) : option edm :=
  match a with
  | ArgDebug => Some Default
  | ArgSWV0 => Some SWV0
  | ArgChaotic => Some Chaotic
  | ArgNone =>
      if negb equal then Some Default
      else if SIZE =? 1 then Some Default
      else if SIZE <=? nrs then Some FewCores else Some SWV0
  | ArgOther => None
  end.

Section Dist.
  (** int(0.75 * n) and int(0.9 * n) in floating point *)
  Context (mlf slf : nat -> nat).

  (** EDM None (lines 196-236): the number of elements of every core *)
  Definition dis_default (SIZE N : nat) : list nat :=
    if SIZE =? 1 then [N]
    else if SIZE =? 2 then [N / 2; N - N / 2]
    else
      let m := N / SIZE in
      let m := if m =? 1 then m else if (m <=? 5) && (2 <? m) then 2 else mlf m in
      let s := (N - m) / (SIZE - 1) in
      let s := if 7 <=? s then slf s else s in
      m :: s :: evenly (N - m - s) (SIZE - 2).

  (** 'chaotic' (lines 238-273): [rnd i] is int(total * DIS[i]) for random DIS; the last core gets the rest. A negative
      rest would fail the assertion start <= stop of ___PRIVATE_BASE_analyze_element_distribution___. *)
  Definition dis_chaotic (rnd : nat -> nat) (SIZE N : nat) : option (list nat) :=
    let d := map rnd (seq 0 (SIZE - 1)) in
    if sum d <=? N then Some (d ++ [N - sum d]) else None.

  (** 'cores_no_more_than_regions' (lines 275-310); [cnt] = numbers of elements of the regions *)
  Fixpoint pop_groups (sizes : list nat) (rns : list nat) : list (list nat) :=
    match sizes with
    | [] => []
    | k :: sizes' => firstn k rns :: pop_groups sizes' (skipn k rns)
    end.
  Definition dis_few (equal : bool) (SIZE : nat) (cnt : list nat) : option (list nat) :=
    let nrs := length cnt in
    if (1 <? SIZE) && (SIZE <=? nrs) && equal then
      Some (if nrs mod SIZE =? 0
            then map (fun i => sum (map (fun j => nth (j + i * (nrs / SIZE)) cnt 0) (seq 0 (nrs / SIZE)))) (seq 0 SIZE)
            else map (fun cover => sum (map (fun r => nth r cnt 0) cover))
                     (pop_groups (rev (evenly nrs SIZE)) (seq 0 nrs)))
    else None.

  (** 'SWV0' (lines 312-357): the cores of every region and their numbers of elements, regions in order *)
  Definition region_cores (SIZE nrs : nat) : list (list nat) :=
    if (nrs =? 1) || (SIZE mod nrs =? 0)
    then map (fun i => map (fun j => j + SIZE / nrs * i) (seq 0 (SIZE / nrs))) (seq 0 nrs)
    else pop_groups (evenly SIZE nrs) (seq 0 SIZE).
  Definition swv0_first (SIZE : nat) (cnt : list nat) : list nat :=
    let nrs := length cnt in
    let rc := region_cores SIZE nrs in
    concat (map (fun cc => let e := evenly (snd cc) (length (fst cc)) in
                           if (nrs =? 1) || (SIZE mod nrs =? 0) then e else rev e) (combine rc cnt)).
  (** disDict[c] += n *)
  Definition add_at (d : list nat) (cn : nat * nat) : list nat :=
    update d (fst cn) (at_core d (fst cn) + snd cn).
  (** lines 363-393 and 395-427: core [who] keeps [keep] of its elements, the rest goes to the cores [slaves] of its region *)
  Definition give (f : nat -> nat) (who : nat) (slaves : list nat) (d : list nat) : list nat :=
    let e := at_core d who in
    if e <=? 2 then d
    else
      let k := if e =? 3 then 2 else f e in
      update (fold_left add_at (combine slaves (evenly (e - k) (length slaves))) d) who k.
  Definition master_gives (rc : list (list nat)) (d : list nat) : list nat :=
    fold_left (fun d cores =>
      if existsb (Nat.eqb master) cores
      then if length cores =? 1 then d
           else give mlf master (filter (fun c => negb (c =? master)) cores) d
      else d) rc d.
  Definition secretary_gives (sec : nat) (rc : list (list nat)) (d : list nat) : list nat :=
    fold_left (fun d cores =>
      if existsb (Nat.eqb sec) cores
      then if length cores =? 1 then d
           else if (length cores =? 2) && existsb (Nat.eqb master) cores then d
           else give slf sec (filter (fun c => negb (c =? master) && negb (c =? sec)) cores) d
      else d) rc d.
  Definition dis_swv0 (equal : bool) (SIZE : nat) (cnt : list nat) : option (list nat) :=
    let nrs := length cnt in
    if (1 <? SIZE) && (nrs <=? SIZE) && equal then
      let rc := region_cores SIZE nrs in
      Some (secretary_gives (secretary SIZE) rc (master_gives rc (swv0_first SIZE cnt)))
    else None.

  (** ___PRIVATE_BASE_parse_element_distribution_method___ (lines 166-452) *)
  Definition distribution (m : edm) (equal : bool) (rnd : nat -> nat) (SIZE : nat) (cnt : list nat) : option (list nat) :=
    match m with
    | Default => Some (dis_default SIZE (sum cnt))
    | Chaotic => dis_chaotic rnd SIZE (sum cnt)
    | FewCores => dis_few equal SIZE cnt
    | SWV0 => dis_swv0 equal SIZE cnt
    end.
  (** lines 439-452: core i gets range(before, before + disDict[i]); here the list of its elements *)
  Fixpoint element_ranges (before : nat) (d : list nat) : list (list nat) :=
    match d with
    | [] => []
    | n :: d' => seq before n :: element_ranges (before + n) d'
    end.

  (** * ___PRIVATE_optimize_element_distribution___ (_3d/mesh/main.py:649-823) for 'SWV0' *)
  (** lines 712-742, 744-775: core [who] keeps [f L] of its layers, the others of [OC] get the rest; DIS_D.pop() takes
      from the end. [skip] : cores left alone *)
  Fixpoint hand_out (who : nat) (skip : nat -> bool) (ML : nat) (cs ls dis : list nat) : list nat :=
    match cs, ls with
    | c :: cs', L :: ls' =>
        if c =? who then ML :: hand_out who skip ML cs' ls' dis
        else if skip c then L :: hand_out who skip ML cs' ls' dis
        else (L + last dis 0) :: hand_out who skip ML cs' ls' (removelast dis)
    | _, _ => ls
    end.
  Definition relieve (f : nat -> nat) (who : nat) (skip : nat -> bool) (cs ls : list nat) : list nat :=
    if existsb (Nat.eqb who) cs then
      let L := sum (map snd (filter (fun cl => fst cl =? who) (combine cs ls))) in
      let ML := if L <=? 2 then L else f L in
      let OC := filter (fun c => negb (c =? who) && negb (skip c)) cs in
      if (L - ML =? 0) || (length OC =? 0) then ls
      else hand_out who skip ML cs ls (evenly (L - ML) (length OC))
    else ls.
  (** one block: the cores [cs] share its layers *)
  Definition opt_block (sec layers : nat) (cs : list nat) (B : nat) : option (list nat) :=
    let d3 := rev (evenly layers (length cs)) in
    if B / layers * layers =? B then
      let d3 := relieve mlf master (fun _ => false) cs d3 in
      let d3 := relieve slf sec (fun c => c =? master) cs d3 in
      Some (map (fun L => L * (B / layers)) d3)
    else None.
  (** new numbers of elements of the cores of a region: None: an assertion fails; Some None: not changed *)
  Definition opt_region (sec : nat) (cores : list nat) (layers : nat) (blocks : list nat) : option (option (list nat)) :=
    let nb := length blocks in
    let nc := length cores in
    if (nb <? 2) || (nc <? nb) || (layers =? 1) then Some None
    else if nc =? nb then Some (Some blocks)
    else
      let d1 := evenly nc nb in
      if existsb (fun n => layers <? n) d1 then Some None
      else match all_some (map (fun cB => opt_block sec layers (fst cB) (snd cB))
                               (combine (break_list_into_parts cores (map Z.of_nat d1)) blocks)) with
           | Some ns => Some (Some (concat ns))
           | None => None
           end.
  (** all regions: [para r] is ___SWV0_para___[r] (layers, blocks) if the region has one. The cores are numbered region by
      region (region_cores), so that the concatenation lists the numbers by core. *)
  Definition optimize (SIZE : nat) (rc : list (list nat)) (para : nat -> option (nat * list nat)) (d : list nat) : option (list nat) :=
    if forallb (fun r => match para r with None => true | Some _ => false end) (seq 0 (length rc)) then Some d
    else
      match all_some (map (fun rcs =>
              match para (fst rcs) with
              | Some (layers, blocks) =>
                  match opt_region (secretary SIZE) (snd rcs) layers blocks with
                  | Some (Some ns) => Some ns
                  | Some None => Some (map (at_core d) (snd rcs))
                  | None => None
                  end
              | None => Some (map (at_core d) (snd rcs))
              end) (combine (seq 0 (length rc)) rc)) with
      | Some ns => Some (concat ns)
      | None => None
      end.
End Dist.

(** * element numbering (_3d/mesh/main.py:198-540) *)
(** position of an index in the order 'C' flattening, [np.arange(n).reshape(s, order='C') + off] *)
Fixpoint cindex (s i : list nat) : nat :=
  match s, i with
  | n :: s', x :: i' => x * prodl s' + cindex s' i'
  | _, _ => 0
  end.
Definition arangeC (n off : nat) (s : list nat) : option (arr nat) :=
  if n =? prodl s then Some (mkArr s (fun i => off + cindex s i)) else None.
Definition set_n (f : list nat -> nat) (w : list nat * nat) : list nat -> nat :=
  fun i => if list_eq_dec Nat.eq_dec i (fst w) then snd w else f i.
(** [_E_[xs, ys, zs] = np.arange(N, N + prod(dims)).reshape(dims, order='F')]; None: shapes do not match *)
Definition put_block (E : list nat -> nat) (N : nat) (ls : list (list nat)) (dims : list nat) : option (list nat -> nat) :=
  if list_eq_dec Nat.eq_dec (map (@length nat) ls) dims
  then Some (fold_left set_n (combine (prod_idx ls) (seq N (prodl dims))) E) else None.
(** the slice [a:b] resp. [a:] of an axis of length n *)
Definition slice (n a b : nat) : list nat := seq a (min b n - a).
(** the loops of lines 376-420 and 461-505 over the blocks (n, m) : array, next number, sizes of the blocks *)
Definition one_block (A0 A1 A2 X Y : nat) (st : option ((list nat -> nat) * nat * list nat)) (nm : nat * nat)
    : option ((list nat -> nat) * nat * list nat) :=
  let '(n, m) := nm in
  match st with
  | Some (E, N, P) =>
      let B0 := A0 / X in let R0 := A0 mod X in let B1 := A1 / Y in let R1 := A1 mod Y in
      let w := if m =? B0 - 1 then X + R0 else X in
      let h := if n =? B1 - 1 then Y + R1 else Y in
      let xs := if m =? B0 - 1 then slice A0 (m * X) A0 else slice A0 (m * X) ((m + 1) * X) in
      let ys := if n =? B1 - 1 then slice A1 (n * Y) A1 else slice A1 (n * Y) ((n + 1) * Y) in
      match put_block E N [xs; ys; seq 0 A2] [w; h; A2] with
      | Some E' => Some (E', N + w * h * A2, P ++ [w * h * A2])
      | None => None
      end
  | None => None
  end.
Definition pylons (g : list nat -> nat) (start A0 A1 A2 X Y : nat) : option (arr nat * (nat * list nat)) :=
  match fold_left (one_block A0 A1 A2 X Y) (flat_map (fun n => map (pair n) (seq 0 (A0 / X))) (seq 0 (A1 / Y)))
                  (Some (g, start, [])) with
  | Some (E, N, P) => if N =? start + A0 * A1 * A2 then Some (mkArr [A0; A1; A2] E, (A2, P)) else None
  | None => None
  end.
(** lines 351-366: the block width if the region has the same number of elements along all axes *)
Definition cube_width (n cne : nat) : nat :=
  let i := match find (fun i => cne <? i * i * i) (seq 1 (n + 1)) with Some i => i | None => n + 1 end in
  let i := i - 1 in
  let i := if i =? 0 then 1 else i in
  let i := if (4 <=? cne) && (i <? 2) then 2 else i in
  if n <? i then n else i.
(** list.sort *)
Fixpoint insert (x : nat) (l : list nat) : list nat :=
  match l with
  | [] => [x]
  | y :: l' => if x <=? y then x :: y :: l' else y :: insert x l'
  end.
Fixpoint isort (l : list nat) : list nat :=
  match l with [] => [] | x :: l' => insert x (isort l') end.
(** lines 509-529: the first of the six transpositions giving the wanted shape *)
Definition perms3 : list (list nat) := [[0; 1; 2]; [0; 2; 1]; [1; 0; 2]; [1; 2; 0]; [2; 0; 1]; [2; 1; 0]].
Definition permute (p s : list nat) : list nat := map (fun a => nth a s 0) p.
(** index in E of the entry i of E.transpose(p) *)
Definition unpermute (p i : list nat) : list nat :=
  map (fun a => match first_index (fun x => x =? a) p with Some k => nth k i 0 | None => 0 end) [0; 1; 2].
Definition transpose_to (lay : list nat) (E : arr nat) : option (arr nat) :=
  match find (fun p => if list_eq_dec Nat.eq_dec (permute p (shp E)) lay then true else false) perms3 with
  | Some p => Some (mkArr lay (fun i => at_ E (unpermute p i)))
  | None => None
  end.
(** how a region is numbered: order 'F' (EDM None, 'cores_no_more_than_regions'), order 'C' ('chaotic'), or 'SWV0' with the
    numbers of elements of the cores of the region before the optimisation. [far]: A2 / A1 >= NCR * 0.75, [xy]: int(X), int(Y) of lines 450-455,
    both computed in floating point, are inputs; [g] is the content of np.empty. *)
Inductive scheme := OrderF | OrderC | Blocks (lens : list nat) (far : bool) (xy : nat * nat).
Definition number_region (g : list nat -> nat) (start : nat) (lay : list nat) (sc : scheme)
    : option (arr nat * option (nat * list nat)) :=
  let num := prodl lay in
  let noopt (a : option (arr nat)) := option_map (fun a => (a, None)) a in
  match sc with
  | OrderF => noopt (arangeF num start lay)
  | OrderC => noopt (arangeC num start lay)
  | Blocks lens far (X, Y) =>
      let NCR := length lens in
      if (NCR =? 1) || existsb (Nat.eqb 0) lens then noopt (arangeF num start lay)
      else
        let E :=
          if NCR <? 4 then noopt (arangeF num start (isort lay))
          else
            let cne := Nat.max 1 (sum lens / length lens) in
            if negb (cne <=? num) then None
            else if cne <=? 3 then noopt (arangeF num start lay)
            else match lay, isort lay with
                 | [n0; n1; n2], [A0; A1; A2] =>
                     if (n0 =? n1) && (n1 =? n2) then
                       let i := cube_width n0 cne in
                       option_map (fun r => (fst r, Some (snd r))) (pylons g start n0 n0 n0 i i)
                     else if far then noopt (arangeF num start [A0; A1; A2])
                     else if A0 * A1 * A0 <=? cne then noopt (arangeF num start [A0; A1; A2])
                     else
                       let X := if X =? 0 then 1 else X in
                       let Y := if Y =? 0 then 1 else Y in
                       let big := (4 <? cne) && (2 <=? A0) && (2 <=? A1) in
                       let X := if big && (X <? 2) then 2 else X in
                       let Y := if big && (Y <? 2) then 2 else Y in
                       let X := if A0 <? X then A0 else X in
                       let Y := if A1 <? Y then A1 else Y in
                       option_map (fun r => (fst r, Some (snd r))) (pylons g start A0 A1 A2 X Y)
                 | _, _ => None
                 end in
        match E with
        | Some (a, para) => match transpose_to lay a with Some b => Some (b, para) | None => None end
        | None => None
        end
  end.
(** the numbering of region r: current_num is the number of elements of the regions before *)
Definition region_numbering (g : nat -> list nat -> nat) (lays : list (list nat)) (sc : nat -> scheme) (r : nat)
    : option (arr nat * option (nat * list nat)) :=
  match nth_error lays r with
  | Some lay => number_region (g r) (sum (map prodl (firstn r lays))) lay (sc r)
  | None => None
  end.
