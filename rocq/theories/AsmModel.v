(** Model of the assemblers of element-wise cached objects
    (tools/elementwiseCache/dataStructures/objects/{sparseMatrix,columnVector}/assembler.py with the
    lockers of sparseMatrix/do.py), of the customizations naming global rows
    (sparseMatrix/customize.py:110-272, columnVector/customize.py:352-427,
    miLinearAlgebra/linearSystem/customize.py:76-89) and of bmat and concatenate
    (dataStructures/operators). Entries are elements of a commutative ring. *)
From Coq Require Import List Arith ZArith Bool.
From Verif Require Import Prelude RingSum AssembleModel GatherModel EwcModel.
Import ListNotations.

Section Asm.
  Variable K : CRing.

  (** a global (assembled) matrix of one core, by its entries *)
  Definition gmat := nat -> nat -> K.

  (** [G[idx]] for an index array *)
  Definition take (G : list nat) (idx : list nat) : option (list nat) := all_some (map (nth_error G) idx).

  (** sparseMatrix/assembler.py:102-119: what one local matrix adds to ROW, COL (zipped) and DAT.
      [gi], [gj] are the gathering vectors GI[i] and GJ[i]; an index error is None; a matrix that is
      neither csc nor csr raises (118). *)
  Fixpoint csc_cols (gi gj : list nat) (j : nat) (cols : list (list (nat * K))) : option (list (nat * nat)) :=
    match cols with
    | [] => Some []
    | col :: cols' =>
        match take gi (map fst col), nth_error gj j, csc_cols gi gj (S j) cols' with
        | Some rs, Some c, Some rest => Some (map (fun r => (r, c)) rs ++ rest)
        | _, _, _ => None
        end
    end.
  Fixpoint csr_rows (gi gj : list nat) (j : nat) (rows : list (list (nat * K))) : option (list (nat * nat)) :=
    match rows with
    | [] => Some []
    | row :: rows' =>
        match nth_error gi j, take gj (map fst row), csr_rows gi gj (S j) rows' with
        | Some r, Some cs, Some rest => Some (map (fun c => (r, c)) cs ++ rest)
        | _, _, _ => None
        end
    end.
  Definition rowcol (gi gj : list nat) (M : sparse K) : option (list (nat * nat)) :=
    match M with
    | CSC _ _ cols => csc_cols gi gj 0 cols
    | CSR _ _ rows => csr_rows gi gj 0 rows
    | Dense _ _ => None
    end.
  (** [Mi.data] *)
  Definition data (M : sparse K) : list K :=
    match M with
    | CSC _ _ cols => map snd (concat cols)
    | CSR _ _ rows => map snd (concat rows)
    | Dense _ _ => []
    end.

  (** [SPA_MATRIX((DAT, (ROW, COL)), shape=(DEP, WID))]: repeated positions are summed; None: scipy
      raises (different lengths, index out of range). *)
  Definition spa (DEP WID : nat) (rc : list (nat * nat)) (dat : list K) : option gmat :=
    if (length rc =? length dat) && forallb (fun p => (fst p <? DEP) && (snd p <? WID)) rc
    then Some (fun a b => bsum (combine rc dat) (fun t => if (fst (fst t) =? a) && (snd (fst t) =? b) then snd t else r0))
    else None.
  Definition gplus (A B : gmat) : gmat := fun a b => radd (A a b) (B a b).

  (** the gathering matrices: dof numbers of the assembled matrix and the vectors by element *)
  Record gathering := mkG { DEP : nat; WID : nat; GI : nat -> option (list nat); GJ : nat -> option (list nat) }.

  (** sparseMatrix/assembler.py:94-136: no sparsity locker; [LIMIT] is the 1e7 of line 121. *)
  Fixpoint default_loop (LIMIT : nat) (g : gathering) (mats : list (nat * sparse K)) (A : gmat)
    (rc : list (nat * nat)) (dat : list K) : option gmat :=
    match mats with
    | [] => match spa (DEP g) (WID g) rc dat with Some B => Some (gplus A B) | None => None end
    | (i, M) :: mats' =>
        match GI g i, GJ g i with
        | Some gi, Some gj =>
            match rowcol gi gj M with
            | None => None
            | Some new =>
                let rc' := rc ++ new in
                let dat' := dat ++ data M in
                if LIMIT <? length dat'
                then match spa (DEP g) (WID g) rc' dat' with
                     | Some B => default_loop LIMIT g mats' (gplus A B) [] []
                     | None => None
                     end
                else default_loop LIMIT g mats' A rc' dat'
            end
        | _, _ => None
        end
    end.

  (** sparseMatrix/assembler.py:141-163 *)
  Fixpoint rc_loop (g : gathering) (mats : list (nat * sparse K)) : option (list (nat * nat)) :=
    match mats with
    | [] => Some []
    | (i, M) :: mats' =>
        match GI g i, GJ g i with
        | Some gi, Some gj =>
            match rowcol gi gj M, rc_loop g mats' with Some a, Some b => Some (a ++ b) | _, _ => None end
        | _, _ => None
        end
    end.

  (** state: do.py:11-12, assembler.py:17-18 *)
  Record asm := mkA { locker : bool; slocker : bool; AMC : option gmat; rc_cache : option (list (nat * nat)) }.
  Definition asm0 : asm := mkA false false None None.

  (** assembler.py:71-181 *)
  Definition default_routine (LIMIT : nat) (g : gathering) (mats : list (nat * sparse K)) (st : asm) : option gmat * asm :=
    if slocker st then
      match rc_cache st with
      | None =>
          match rc_loop g mats with
          | None => (None, st)
          | Some rc => (spa (DEP g) (WID g) rc (concat (map (fun m => data (snd m)) mats)),
                        mkA (locker st) (slocker st) (AMC st) (Some rc))
          end
      | Some rc => (spa (DEP g) (WID g) rc (concat (map (fun m => data (snd m)) mats)), st)
      end
    else (default_loop LIMIT g mats (fun _ _ => r0) [] [], st).

  (** assembler.py:33-60 *)
  Definition assemble (LIMIT : nat) (g : gathering) (mats : list (nat * sparse K)) (st : asm) : option gmat * asm :=
    match AMC st with
    | Some A => (Some A, st)
    | None =>
        match default_routine LIMIT g mats st with
        | (None, st') => (None, st')
        | (Some A, st') => (Some A, mkA (locker st') (slocker st') (if locker st' then Some A else AMC st') (rc_cache st'))
        end
    end.

  (** what a program does: lockers (do.py:14-38), assembling with the local matrices of the moment *)
  Inductive aevent := LockA | UnlockA | LockS | UnlockS | Assemble (g : gathering) (mats : list (nat * sparse K)).
  Definition astep (LIMIT : nat) (st : asm) (ev : aevent) : asm :=
    match ev with
    | LockA => mkA true (slocker st) (AMC st) (rc_cache st)
    | UnlockA => mkA false (slocker st) None (rc_cache st)
    | LockS => mkA (locker st) true (AMC st) (rc_cache st)
    | UnlockS => mkA (locker st) false (AMC st) None
    | Assemble g mats => snd (assemble LIMIT g mats st)
    end.

  (** * vectors: columnVector/assembler.py:43-62; a local vector is a csc matrix with one column. *)
  Definition gvec := nat -> K.
  Fixpoint vec_loop (GIv : nat -> option (list nat)) (vs : list (nat * list (nat * K))) : option (list (nat * K)) :=
    match vs with
    | [] => Some []
    | (i, col) :: vs' =>
        match GIv i with
        | Some gi => match take gi (map fst col), vec_loop GIv vs' with
                     | Some rs, Some rest => Some (combine rs (map snd col) ++ rest)
                     | _, _ => None
                     end
        | None => None
        end
    end.
  Definition assemble_vec (DEP : nat) (GIv : nat -> option (list nat)) (vs : list (nat * list (nat * K))) : option gvec :=
    match vec_loop GIv vs with
    | Some rd => if forallb (fun p => fst p <? DEP) rd
                 then Some (fun a => bsum rd (fun p => if fst p =? a then snd p else r0)) else None
    | None => None
    end.

  (** * customizations that name rows of the assembled matrix *)
  (** the customizations of all cores: [cus r] is ___customizations___ of core r *)
  Definition cdict := nat -> list (nat * list (cusop K)).

  Definition register_all (d : list (nat * list (cusop K))) (l : list (nat * cusop K)) : list (nat * list (cusop K)) :=
    fold_left (fun d ec => register _ d (fst ec) (snd ec)) l d.

  (** one search per core; None if one of them raises *)
  Definition finds (SIZE : nat) (gms : list GMat) (N : option nat) (m : Z) : option (list (option (list nat * list nat))) :=
    all_some (map (fun r => match CGM_find SIZE gms r N m with
                            | Raised => None | NotFound => Some None | Found x => Some (Some x) end) (seq 0 SIZE)).

  Definition found_at (fs : list (option (list nat * list nat))) (r : nat) : option (list nat * list nat) := nth r fs None.

  (** sparseMatrix/customize.py:110-141 *)
  Definition clear_global_row (SIZE : nat) (rgms : list GMat) (N : option nat) (row : Z) (cus : cdict) : option cdict :=
    match finds SIZE rgms N row with
    | None => None
    | Some fs => Some (fun r => match found_at fs r with
                                | None => cus r
                                | Some (E, Is) => register_all (cus r) (map (fun p => (fst p, clr (snd p))) (combine E Is))
                                end)
    end.

  (** customize.py:178-196: TBG and LOCAL_ij of one core, zipped; the first matching column index *)
  Definition TBG (rO cO : option (list nat * list nat)) : list (nat * (nat * nat)) :=
    match rO, cO with
    | Some (rE, rI), Some (cE, cI) =>
        flat_map (fun p => match lookup Nat.eqb (fst p) (combine cE cI) with
                           | Some cj => [(fst p, (snd p, cj))]
                           | None => []
                           end) (combine rE rI)
    | _, _ => []
    end.

  (** customize.py:153-256. [choose] is [list(set(...))[0]] (209-214): python's choice in a set. *)
  Definition set_assembled_M_ij_to (choose : list nat -> nat) (SIZE : nat) (rgms cgms : list GMat) (N : option nat)
    (i j : Z) (v : K) (cus : cdict) : option cdict :=
    match finds SIZE rgms N i, finds SIZE cgms N j with
    | Some rf, Some cf =>
        let tbg := fun r => TBG (found_at rf r) (found_at cf r) in
        let all := concat (map (fun r => map fst (tbg r)) (seq 0 SIZE)) in
        match all with
        | [] => None
        | _ =>
            let the_element := choose all in
            match filter (fun r => existsb (Nat.eqb the_element) (map fst (tbg r))) (seq 0 SIZE) with
            | [] => None
            | use_who :: _ =>
                Some (fun r => register_all (cus r)
                  (map (fun p => (fst p, salv (fst (snd p)) (snd (snd p))
                                     (if (r =? use_who) && (fst p =? the_element) then v else r0))) (tbg r)))
            end
        end
    | _, _ => None
    end.

  (** customize.py:258-272 *)
  Definition identify_global_row choose (SIZE : nat) (rgms cgms : list GMat) (N : option nat) (row : Z) (cus : cdict)
    : option cdict :=
    match clear_global_row SIZE rgms N row cus with
    | Some cus' => set_assembled_M_ij_to choose SIZE rgms cgms N row row r1 cus'
    | None => None
    end.

  (** columnVector/customize.py:352-427 *)
  Definition vdict := nat -> list (nat * list (vcusop K)).
  Definition vregister_all (d : list (nat * list (vcusop K))) (l : list (nat * vcusop K)) : list (nat * list (vcusop K)) :=
    fold_left (fun d ec => register _ d (fst ec) (snd ec)) l d.
  Definition set_assembled_V_i_to (SIZE : nat) (gms : list GMat) (N : option nat) (i : Z) (v : K) (cus : vdict)
    : option vdict :=
    match finds SIZE gms N i with
    | None => None
    | Some fs =>
        let els := fun r => match found_at fs r with Some (E, _) => E | None => [] end in
        match concat (map els (seq 0 SIZE)) with
        | [] => None
        | all =>
            let the_element := minl all in
            match filter (fun r => existsb (Nat.eqb the_element) (els r)) (seq 0 SIZE) with
            | [] => None
            | use_who :: _ =>
                (* 404: assert the_element == elements[0] on core use_who *)
                match els use_who with
                | e0 :: _ =>
                    if the_element =? e0 then
                      Some (fun r => match found_at fs r with
                        | None => cus r
                        | Some (E, Is) => vregister_all (cus r)
                            (map (fun p => (fst p, if (r =? use_who) && (fst p =? the_element) then slet (snd p) v else cletr (snd p)))
                                 (combine E Is))
                        end)
                    else None
                | [] => None
                end
            end
        end
    end.

  (** miLinearAlgebra/linearSystem/customize.py:80-89 *)
  Definition set_unknown_to choose (SIZE : nat) (rgms cgms bgms : list GMat) (N : option nat) (row : Z) (v : K)
    (Acus : cdict) (bcus : vdict) : option (cdict * vdict) :=
    match identify_global_row choose SIZE rgms cgms N row Acus with
    | Some Acus' => match set_assembled_V_i_to SIZE bgms N row v bcus with
                    | Some bcus' => Some (Acus', bcus') | None => None end
    | None => None
    end.

  (** * block matrices *)
  (** bmat/sparse_matrix/helpers/DG.py:13-19, scipy's bmat: every block row (column) must have a block;
      blocks of a row (column) have the same number of rows (columns); None blocks are zero. *)
  Definition block_rows (row : list (option (lmat K))) : option nat :=
    match flat_map (fun b => match b with Some M => [nrow K M] | None => [] end) row with
    | [] => None
    | n :: ns => if forallb (Nat.eqb n) ns then Some n else None
    end.
  Definition block_cols (blocks : list (list (option (lmat K)))) (j : nat) : option nat :=
    match flat_map (fun row => match nth j row None with Some M => [ncol K M] | None => [] end) blocks with
    | [] => None
    | n :: ns => if forallb (Nat.eqb n) ns then Some n else None
    end.
  (** position of index i among consecutive blocks of sizes ns: (block, index in it) *)
  Fixpoint locate (ns : list nat) (b i : nat) : nat * nat :=
    match ns with
    | [] => (b, i)
    | n :: ns' => if i <? n then (b, i) else locate ns' (S b) (i - n)
    end.
  Definition bmat (blocks : list (list (option (lmat K)))) : option (lmat K) :=
    match blocks with
    | [] => None
    | row0 :: _ =>
        if forallb (fun row => length row =? length row0) blocks then
          match all_some (map block_rows blocks), all_some (map (block_cols blocks) (seq 0 (length row0))) with
          | Some rs, Some cs =>
              Some (mkL K (sum rs) (sum cs) (fun i j =>
                let (bi, i') := locate rs 0 i in
                let (bj, j') := locate cs 0 j in
                match nth bj (nth bi blocks []) None with Some M => ent K M i' j' | None => r0 end))
          | _, _ => None
          end
        else None
    end.
  (** concatenate/column_vector/helpers/DG.py:13-17, scipy's vstack of column vectors *)
  Definition vstack (vs : list (lvec K)) : lvec K :=
    mkV K (sum (map (vlen K) vs)) (fun i =>
      let (b, i') := locate (map (vlen K) vs) 0 i in
      match nth_error vs b with Some x => vent K x i' | None => r0 end).
End Asm.
