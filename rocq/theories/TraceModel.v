(** Model of the trace elements of a 3D mesh: objects/CSCG/_3d/mesh/trace/elements/main.py and element/{main,whether}.py.
    The cores run one after the other, each handing its POOL and counter to the next: the whole run is a fold over the cores. *)
From Coq Require Import List Arith Bool.
From Verif Require Import Prelude SpaceModel MeshModel MeshMapModel.
Import ListNotations.

(** * dicts: lists of items; setting a key moves it to the front (the order of these dicts is never used) *)
Definition eqb2 (a b : nat * nat) : bool := (fst a =? fst b) && (snd a =? snd b).
Definition dget {K V} (eqb : K -> K -> bool) (d : list (K * V)) (k : K) : option V := lookup eqb k d.
Definition ddel {K V} (eqb : K -> K -> bool) (d : list (K * V)) (k : K) : list (K * V) := filter (fun kv => negb (eqb k (fst kv))) d.
Definition dset {K V} (eqb : K -> K -> bool) (d : list (K * V)) (k : K) (v : V) : list (K * V) := (k, v) :: ddel eqb d k.

(** * a trace element (element/main.py:30-54) *)
(** a position: str(i) + 'NSWEBF'[j], or a boundary name *)
Inductive pos := Side (e j : nat) | OnB (b : nat).
Record tel := mkTel { p1 : pos; p2 : pos; cp : nat * nat; ondb : bool; onpb : bool }.
(** the constructor: position_1 or position_2 must be cp, and its element on this core ([local]). The assertion that a
    boundary name does not begin with a digit (line 47) is not modelled *)
Definition pos_eqb (p q : pos) : bool :=
  match p, q with Side e j, Side f i => eqb2 (e, j) (f, i) | OnB a, OnB b => a =? b | _, _ => false end.
Definition new_tel (local : nat -> bool) (q1 q2 : pos) (c : nat * nat) (db pb : bool) : option tel :=
  if (pos_eqb q1 (Side (fst c) (snd c)) || pos_eqb q2 (Side (fst c) (snd c))) && local (fst c) then Some (mkTel q1 q2 c db pb) else None.

(** * ___PRIVATE_generating_trace_elements___ (lines 200-281) *)
(** the state of a core: cn, POOL, LOCAL_POOL, _elements_, _MAP_[i] so far *)
Record tst := mkTst { cn : nat; pool : list ((nat * nat) * nat); lpool : list ((nat * nat) * nat); tels : list (nat * tel); trow : list nat }.
(** pair_1 in upesp or pair_2 in upesp, with [ups] the useful periodic pairs of the core *)
Definition epair_eqb (a b : epair) : bool :=
  let '(e1, s1, s2, e2) := a in let '(f1, t1, t2, f2) := b in (e1 =? f1) && side_eqb s1 t1 && side_eqb s2 t2 && (e2 =? f2).
Definition on_pb (ups : list epair) (i j what : nat) : bool :=
  existsb (epair_eqb (i, side_of j, side_of (opp_index j), what)) ups ||
  existsb (epair_eqb (what, side_of (opp_index j), side_of j, i)) ups.
(** lines 217-263: side j of element i, with [what] beside it *)
Definition one_side (local : nat -> bool) (ups : list epair) (i : nat) (st : option tst) (jw : nat * beside) : option tst :=
  match st with
  | None => None
  | Some st =>
    let '(j, what) := jw in
    match what with
    | Bd b =>
        match new_tel local (Side i j) (OnB b) (i, j) true false with
        | Some t => Some (mkTst (cn st + 1) (pool st) (lpool st) (dset Nat.eqb (tels st) (cn st) t) (trow st ++ [cn st]))
        | None => None
        end
    | El w =>
        let pb := on_pb ups i j w in
        let q1 := (i, j) in let q2 := (w, opp_index j) in
        if i <? w then
          match new_tel local (Side i j) (Side w (opp_index j)) q1 false pb with
          | Some t => Some (mkTst (cn st + 1) (dset eqb2 (dset eqb2 (pool st) q1 (cn st)) q2 (cn st)) (lpool st)
                              (dset Nat.eqb (tels st) (cn st) t) (trow st ++ [cn st]))
          | None => None
          end
        else if w =? i then
          if pb then
            if Nat.even j then (* side_1 in 'NWB' *)
              match new_tel local (Side i j) (Side w (opp_index j)) q1 false true with
              | Some t => Some (mkTst (cn st + 1) (pool st) (dset eqb2 (lpool st) q2 (cn st)) (dset Nat.eqb (tels st) (cn st) t) (trow st ++ [cn st]))
              | None => None
              end
            else match dget eqb2 (lpool st) q1 with
                 | Some tn => Some (mkTst (cn st) (pool st) (ddel eqb2 (lpool st) q1) (tels st) (trow st ++ [tn]))
                 | None => None
                 end
          else None
        else
          match dget eqb2 (pool st) q1, dget eqb2 (pool st) q2 with
          | Some tn, Some tn' =>
              if tn =? tn' then
                let pool' := ddel eqb2 (ddel eqb2 (pool st) q1) q2 in
                match dget Nat.eqb (tels st) tn with
                | Some _ => Some (mkTst (cn st) pool' (lpool st) (tels st) (trow st ++ [tn]))
                | None => match new_tel local (Side w (opp_index j)) (Side i j) q1 false pb with
                          | Some t => Some (mkTst (cn st) pool' (lpool st) (dset Nat.eqb (tels st) tn t) (trow st ++ [tn]))
                          | None => None
                          end
                end
              else None
          | _, _ => None
          end
    end
  end.
(** lines 215-216: an element; _MAP_ of the core is the second component *)
Definition one_element (local : nat -> bool) (ups : list epair) (st : option (tst * list (nat * list nat))) (er : nat * list beside) : option (tst * list (nat * list nat)) :=
  match st with
  | None => None
  | Some (st, mp) =>
      match fold_left (one_side local ups (fst er)) (combine (seq 0 6) (snd er)) (Some (mkTst (cn st) (pool st) (lpool st) (tels st) [])) with
      | Some st' => Some (st', mp ++ [(fst er, trow st')])
      | None => None
      end
  end.
(** a core: its element map and its useful periodic pairs; what it gets and hands on: POOL, cn *)
Definition one_core (st : option (nat * list ((nat * nat) * nat) * list (list (nat * tel) * list (nat * list nat)))) (c : emap * list epair)
    : option (nat * list ((nat * nat) * nat) * list (list (nat * tel) * list (nat * list nat))) :=
  match st with
  | None => None
  | Some (n, po, out) =>
      match fold_left (one_element (fun e => mem e (map fst (fst c))) (snd c)) (fst c) (Some (mkTst n po [] [] [], [])) with
      | Some (st', mp) => Some (cn st', pool st', out ++ [(tels st', mp)])
      | None => None
      end
  end.
(** all cores: their _elements_ and _MAP_, and _GLOBAL_num_; the last core asserts len(POOL) == 0 (line 266) *)
Definition trace_elements (cs : list (emap * list epair)) : option (list (list (nat * tel) * list (nat * list nat)) * nat) :=
  match fold_left one_core cs (Some (0, [], [])) with
  | Some (n, [], out) => Some (out, n)
  | _ => None
  end.
(** lines 275-280 (SAFE_MODE): the entries of _MAP_ are the keys of _elements_ *)
Definition safe_check (out : list (nat * tel) * list (nat * list nat)) : bool :=
  forallb (fun t => mem t (map fst (fst out))) (flat_map snd (snd out)) && forallb (fun t => mem t (flat_map snd (snd out))) (map fst (fst out)).

(** ** the useful periodic pairs of a core (_3d/mesh/main.py:996-997) *)
Definition useful_pairs (m : emap) (ps : list epair) : list epair :=
  filter (fun p => let '(e1, _, _, e2) := p in mem e1 (map fst m) || mem e2 (map fst m)) ps.

(** * ___PRIVATE_find_type_and_amount_numbered_before___ (lines 46-102) *)
(** shared_by_cores (whether.py:37-49), shared_with_core (element/main.py:160-174): None: not shared; [slave] is
    slave_of_element. Some None: an exception *)
Definition shared_with (local : nat -> bool) (slave : nat -> option nat) (RANK : nat) (t : tel) : option (option nat) :=
  if ondb t then Some None
  else match p1 t, p2 t with
       | Side e _, Side f _ =>
           if local e && local f then Some None
           else match (if local e then slave f else if local f then slave e else None) with
                | Some c => if c =? RANK then None else Some (Some c)
                | None => None
                end
       | _, _ => None
       end.
Definition bump (j : nat) (c : nat * nat * nat) : nat * nat * nat :=
  let '(a, b, d) := c in
  if j / 2 =? 0 then (a + 1, b, d) else if j / 2 =? 1 then (a, b + 1, d) else (a, b, d + 1).
Definition total (c : nat * nat * nat) : nat := let '(a, b, d) := c in a + b + d.
Definition cnt_eqb (c c' : nat * nat * nat) : bool :=
  let '(a, b, d) := c in let '(a', b', d') := c' in (a =? a') && (b =? b') && (d =? d').
Fixpoint insert (x : nat) (l : list nat) : list nat :=
  match l with [] => [x] | y :: l' => if x <=? y then x :: y :: l' else y :: insert x l' end.
Definition sorted (l : list nat) : list nat := fold_right insert [] l.
(** lines 64-93: trace element i; POOL and type_amount_dict *)
Definition count_one (local : nat -> bool) (slave : nat -> option nat) (RANK G : nat) (tes : list (nat * tel))
    (st : option (list (nat * (nat * nat * nat)) * list (nat * (nat * nat * nat)))) (i : nat) :=
  match st with
  | None => None
  | Some (po, ta) =>
      let po := if i =? 0 then dset Nat.eqb po 0 (0, 0, 0) else po in
      match dget Nat.eqb tes i, dget Nat.eqb po i with
      | Some t, Some c =>
          let c' := bump (snd (cp t)) c in
          let po' := match dget Nat.eqb po (i + 1) with
                     | Some c'' => if cnt_eqb c' c'' then Some po else None
                     | None => if i + 1 =? G then if total c' =? G then Some po else None else Some (dset Nat.eqb po (i + 1) c')
                     end in
          match po', shared_with local slave RANK t with
          | Some po', Some None => Some (ddel Nat.eqb po' i, ta ++ [(i, c)])
          | Some po', Some (Some core) => Some (if core <? RANK then ddel Nat.eqb po' i else po', ta ++ [(i, c)])
          | _, _ => None
          end
      | _, _ => None
      end
  end.
(** a core; the rank is counted along *)
Definition count_core (slave : nat -> option nat) (G : nat)
    (st : option (nat * list (nat * (nat * nat * nat)) * list (list (nat * (nat * nat * nat))))) (c : emap * list (nat * tel)) :=
  match st with
  | None => None
  | Some (RANK, po, out) =>
      match fold_left (count_one (fun e => mem e (map fst (fst c))) slave RANK G (snd c)) (sorted (map fst (snd c))) (Some (po, [])) with
      | Some (po', ta) => Some (S RANK, po', out ++ [ta])
      | None => None
      end
  end.
Definition type_amounts (slave : nat -> option nat) (G : nat) (cs : list (emap * list (nat * tel))) : option (list (list (nat * (nat * nat * nat)))) :=
  option_map snd (fold_left (count_core slave G) cs (Some (0, [], []))).

(** * hybrid numbering of a trace form (_3d/forms/trace/base/numbering/Naive.py:59-84, the same at 126-147, 189-210) *)
(** [nbo ax]: the number of basis functions on a side of axis ax. GM_TEW: the range of every trace element of the core *)
Definition start_num (nbo : nat -> nat) (c : nat * nat * nat) : nat := let '(a, b, d) := c in a * nbo 0 + b * nbo 1 + d * nbo 2.
Definition gm_tew (nbo : nat -> nat) (tes : list (nat * tel)) (ta : list (nat * (nat * nat * nat))) : option (list (nat * list nat)) :=
  all_some (map (fun it => match dget Nat.eqb ta (fst it) with
                           | Some c => Some (fst it, seq (start_num nbo c) (nbo (snd (cp (snd it)) / 2)))
                           | None => None
                           end) tes).
(** GM[i]: the ranges of the six trace elements one after the other *)
Definition gm_trace (tew : list (nat * list nat)) (mp : list (nat * list nat)) : option (list (nat * list nat)) :=
  all_some (map (fun er => option_map (fun ls => (fst er, concat ls)) (all_some (map (dget Nat.eqb tew) (snd er)))) mp).
