(** Property theorems C18-C23. *)
From Coq Require Import List Arith ZArith Bool Lia Sorting.Sorted.
From Verif Require Import Prelude RingSum AssembleModel GatherModel GatherSpec EwcModel AsmModel AsmSpec
  AsmProofs RowsProofs VRowsProofs BmatProofs ExHelp.
Import ListNotations.

(** C18: whatever was locked, unlocked and assembled before, the matrix assembled now is the scatter sum
    of the local matrices it was asked for (or of those it was locked with) *)
Theorem C18_assembly : forall K LIMIT evs g mats,
  all_fit K (evs ++ [Assemble K g mats]) -> keeps_pattern K (evs ++ [Assemble K g mats]) ->
  exists A, fst (assemble K LIMIT g mats (fold_left (astep K LIMIT) evs (asm0 K))) = Some A /\
    forall a b, A a b = match frozen K evs with
                        | Some (g', mats') => sum_of K g' mats' a b
                        | None => sum_of K g mats a b end.
Proof. exact assembly_ok. Qed.
Print Assumptions C18_assembly.

(** two elements sharing dof 1; the second matrix is csc *)
Definition g18 : gathering := mkG 3 3 (fun e => nth_error [[0; 1]; [1; 2]] e) (fun e => nth_error [[0; 1]; [1; 2]] e).
Definition m18 : list (nat * sparse ZR) :=
  [(0, CSR ZR 2 [[(0, 1%Z)]; [(0, 2%Z); (1, 3%Z)]]); (1, CSC ZR 2 [[(0, 4%Z); (1, 5%Z)]; [(1, 6%Z)]])].
Definition m18' : list (nat * sparse ZR) :=
  [(0, CSR ZR 2 [[(0, 7%Z)]; [(0, 7%Z); (1, 7%Z)]]); (1, CSC ZR 2 [[(0, 7%Z); (1, 7%Z)]; [(1, 7%Z)]])].
Definition read3 (A : option (nat -> nat -> Z)) : option (list (list Z)) :=
  option_map (fun A => map (fun a => map (A a) (seq 0 3)) (seq 0 3)) A.
Example C18_ex : read3 (fst (assemble ZR 2 g18 m18 (asm0 ZR))) = Some [[1; 0; 0]; [2; 7; 0]; [0; 5; 6]]%Z /\
  read3 (fst (assemble ZR 9 g18 m18 (fold_left (astep ZR 9) [LockS ZR; Assemble ZR g18 m18'] (asm0 ZR)))) = Some [[1; 0; 0]; [2; 7; 0]; [0; 5; 6]]%Z /\
  read3 (fst (assemble ZR 9 g18 m18 (fold_left (astep ZR 9) [LockA ZR; Assemble ZR g18 m18'] (asm0 ZR)))) = Some [[7; 0; 0]; [7; 14; 0]; [0; 7; 7]]%Z.
Proof. repeat split. Qed.
Example C18_ex_hypotheses : let evs := [LockS ZR; Assemble ZR g18 m18'; Assemble ZR g18 m18] in all_fit ZR evs /\ keeps_pattern ZR evs.
Proof.
  assert (F : forall m, m = m18 \/ m = m18' -> Forall (fits ZR g18) m).
  { intros m [-> | ->]; unfold m18, m18';
      (apply Forall_cons; [|apply Forall_cons; [|apply Forall_nil]]);
      (split; [intros col p Hc Hp; cbn in Hc; intuition (subst; cbn in *; intuition (subst; cbn; lia))
              |eexists _, _; repeat split; repeat (apply Forall_cons || apply Forall_nil); cbn; lia]). }
  split.
  - intros g m [H|[H|[H|[]]]]; [discriminate|injection H as <- <-; apply F; auto|injection H as <- <-; apply F; auto].
  - intros pre g m mid g' m' post E _ _.
    assert (X : forall g m, In (Assemble ZR g m) [LockS ZR; Assemble ZR g18 m18'; Assemble ZR g18 m18] -> g = g18 /\ (m = m18 \/ m = m18')).
    { intros g0 m0 [H|[H|[H|[]]]]; [discriminate| |]; injection H as <- <-; auto. }
    destruct (X g m) as [-> M1]; [rewrite E; apply in_or_app; right; left; reflexivity|].
    destruct (X g' m') as [-> M2]; [rewrite E; apply in_or_app; right; right; apply in_or_app; right; left; reflexivity|].
    unfold same_pattern. cbn [fst snd]. repeat split; destruct M1, M2; subst; reflexivity.
Qed.

(** changing the gathering matrices while the sparsity is locked is accepted, and the old rows and columns are used *)
Theorem C18_regather_refuted :
  ~ (forall K LIMIT evs g mats, all_fit K (evs ++ [Assemble K g mats]) -> frozen K evs = None ->
     exists A, fst (assemble K LIMIT g mats (fold_left (astep K LIMIT) evs (asm0 K))) = Some A /\
       forall a b, A a b = sum_of K g mats a b).
Proof.
  intros H. pose (g2 := mkG 3 3 (fun e => nth_error [[2; 1]; [1; 0]] e) (fun e => nth_error [[2; 1]; [1; 0]] e)).
  destruct (H ZR 9 [LockS ZR; Assemble ZR g18 m18] g2 m18) as (A & E & EQ).
  - intros g m [I|[I|[I|[]]]]; [discriminate| |]; injection I as <- <-;
      (apply Forall_cons; [|apply Forall_cons; [|constructor]];
      (split; [intros col p Hc Hp; cbn in Hc; intuition (subst; cbn in *; intuition (subst; cbn; lia))
              |eexists _, _; repeat split; repeat constructor])).
  - reflexivity.
  - specialize (EQ 0 0). vm_compute in E. injection E as <-. vm_compute in EQ. discriminate.
Qed.
Print Assumptions C18_regather_refuted.

(** C19 *)
Theorem C19_vector_assembly : forall K n G vs, Forall (vfits K n G) vs ->
  exists A, assemble_vec K n G vs = Some A /\ forall a, A a = vsum_of K G vs a.
Proof. exact vassembly_ok. Qed.
Print Assumptions C19_vector_assembly.
Example C19_ex : let vs : list (nat * list (nat * ZR)) := [(0, [(0, 1%Z); (1, 2%Z)]); (1, [(1, 5%Z); (0, 3%Z)])] in
  option_map (fun A => map A (seq 0 3)) (assemble_vec ZR 3 (GI g18) vs) = Some [1; 5; 5]%Z /\ Forall (vfits ZR 3 (GI g18)) vs.
Proof. split; [reflexivity|]. repeat constructor; (eexists; repeat split; repeat constructor). Qed.

(** C20 *)
Theorem C20_clear_global_row : forall K SIZE rgms cgms ns ms,
  well_numbered SIZE rgms ns -> well_numbered SIZE cgms ms -> same_cores SIZE (nth 0 rgms []) (nth 0 cgms []) ->
  (forall g, In g rgms -> regular g) ->
  forall N m, (- Z.of_nat (sum ns) <= m < Z.of_nat (sum ns))%Z ->
  within_cap SIZE rgms N (row_of (sum ns) m) -> once SIZE rgms (row_of (sum ns) m) ->
  forall cus, exists cus', clear_global_row K SIZE rgms N m cus = Some cus' /\
    forall base A, sizes_match K SIZE rgms cgms base -> assembled K SIZE rgms cgms base cus A ->
      assembled K SIZE rgms cgms base cus' (fun a b => if a =? row_of (sum ns) m then r0 else A a b).
Proof. exact clear_ok. Qed.
Print Assumptions C20_clear_global_row.

Theorem C20_set_assembled_entry : forall K SIZE rgms cgms ns ms,
  well_numbered SIZE rgms ns -> well_numbered SIZE cgms ms -> same_cores SIZE (nth 0 rgms []) (nth 0 cgms []) ->
  (forall g, In g rgms -> regular g) -> (forall g, In g cgms -> regular g) ->
  forall choose, (forall l, l <> [] -> In (choose l) l) ->
  forall N i j, (- Z.of_nat (sum ns) <= i < Z.of_nat (sum ns))%Z -> (- Z.of_nat (sum ms) <= j < Z.of_nat (sum ms))%Z ->
  within_cap SIZE rgms N (row_of (sum ns) i) -> within_cap SIZE cgms N (row_of (sum ms) j) ->
  once SIZE rgms (row_of (sum ns) i) -> once SIZE cgms (row_of (sum ms) j) ->
  forall v cus,
  match set_assembled_M_ij_to K choose SIZE rgms cgms N i j v cus with
  | None => ~ coupled SIZE rgms cgms (row_of (sum ns) i) (row_of (sum ms) j)
  | Some cus' => coupled SIZE rgms cgms (row_of (sum ns) i) (row_of (sum ms) j) /\
      forall base A, sizes_match K SIZE rgms cgms base -> assembled K SIZE rgms cgms base cus A ->
        assembled K SIZE rgms cgms base cus'
          (fun a b => if (a =? row_of (sum ns) i) && (b =? row_of (sum ms) j) then v else A a b)
  end.
Proof. exact set_ok. Qed.
Print Assumptions C20_set_assembled_entry.

Theorem C20_identify_global_row : forall K SIZE rgms cgms ns ms,
  well_numbered SIZE rgms ns -> well_numbered SIZE cgms ms -> same_cores SIZE (nth 0 rgms []) (nth 0 cgms []) ->
  (forall g, In g rgms -> regular g) -> (forall g, In g cgms -> regular g) ->
  forall choose, (forall l, l <> [] -> In (choose l) l) ->
  forall N m, (- Z.of_nat (sum ns) <= m < Z.of_nat (sum ns))%Z -> (- Z.of_nat (sum ms) <= m < Z.of_nat (sum ms))%Z ->
  within_cap SIZE rgms N (row_of (sum ns) m) -> within_cap SIZE cgms N (row_of (sum ms) m) ->
  once SIZE rgms (row_of (sum ns) m) -> once SIZE cgms (row_of (sum ms) m) ->
  forall cus,
  match identify_global_row K choose SIZE rgms cgms N m cus with
  | None => ~ coupled SIZE rgms cgms (row_of (sum ns) m) (row_of (sum ms) m)
  | Some cus' => coupled SIZE rgms cgms (row_of (sum ns) m) (row_of (sum ms) m) /\
      forall base A, sizes_match K SIZE rgms cgms base -> assembled K SIZE rgms cgms base cus A ->
        assembled K SIZE rgms cgms base cus'
          (fun a b => if a =? row_of (sum ns) m then (if b =? row_of (sum ms) m then r1 else r0) else A a b)
  end.
Proof. exact identify_ok. Qed.
Print Assumptions C20_identify_global_row.

(** two matrices on three elements over two cores; dof 2 of the first is shared across the cores *)
Definition g20 : list GMat :=
  [ [ [(0, [0; 1]); (1, [1; 2])]; [(2, [2; 3])] ];
    [ [(0, [0]); (1, [1])]; [(2, [2])] ] ].
Example C20_ex_hypotheses : well_numbered 2 g20 [4; 3] /\ same_cores 2 (nth 0 g20 []) (nth 0 g20 []) /\
  (forall g, In g g20 -> regular g) /\ (forall M, once 2 g20 M) /\ (forall M, within_cap 2 g20 None M) /\
  sizes_match ZR 2 g20 g20 (fun r e => mkL ZR 3 3 (fun i j => Z.of_nat (i + j + e))).
Proof.
  assert (W : well_numbered 2 g20 [4; 3]) by (apply wn_check_ok; reflexivity).
  split; [exact W|]. split; [intros r _ e; tauto|]. split; [|split; [|split]].
  - intros g [<-|[<-|[]]]; apply regular_check_ok; reflexivity.
  - intros M. apply (once_check_ok 2 g20 [4; 3] M W). reflexivity.
  - intros M. exact I.
  - intros r e gi gj E1 E2. assert (L : forall r e v, CGM_getitem 2 g20 Silly r e = Some v -> length v = 3).
    { clear. intros r e v E. destruct r as [|[|[|r]]]; destruct e as [|[|[|e]]]; vm_compute in E; try discriminate; injection E as <-; reflexivity. }
    rewrite (L _ _ _ E1), (L _ _ _ E2). auto.
Qed.
Example C20_ex : option_map (fun c => (c 0, c 1)) (identify_global_row ZR (fun l => hd 0 l) 2 g20 g20 None 2 (fun _ => [])) =
  Some ([(1, [clr 1; salv 1 1 1%Z])], [(2, [clr 0; salv 0 0 0%Z])]) /\
  option_map (fun c => (c 0, c 1)) (clear_global_row ZR 2 g20 None (-1) (fun _ => [])) = Some ([], [(2, [clr 2])]) /\
  match set_assembled_M_ij_to ZR (fun l => hd 0 l) 2 g20 g20 None 0 3 7%Z (fun _ => []) with None => True | Some _ => False end.
Proof. repeat split. Qed.

(** with the default search limit of 4 elements (2d meshes) a row shared by five elements is not cleared *)
Definition g20' : list GMat := [ [ [(0, [0; 1]); (1, [0; 2]); (2, [0; 3]); (3, [0; 4]); (4, [0; 5])] ] ].
Theorem C20_capped_search_refuted :
  ~ (forall SIZE gms ns m cus cus' base A', well_numbered SIZE gms ns -> (forall g, In g gms -> regular g) ->
     (forall M, once SIZE gms M) -> sizes_match ZR SIZE gms gms base ->
     clear_global_row ZR SIZE gms (Some 4) m cus = Some cus' -> assembled ZR SIZE gms gms base cus' A' ->
     forall b, A' (row_of (sum ns) m) b = 0%Z).
Proof.
  intros H. assert (W : well_numbered 1 g20' [6]) by (apply wn_check_ok; reflexivity).
  assert (CL : exists cus', clear_global_row ZR 1 g20' (Some 4) 0 (fun _ => []) = Some cus' /\
    forall r e, r < 1 -> dget (cus' r) e = if e <? 4 then [clr 0] else []).
  { eexists. split; [reflexivity|]. intros r e Hr. destruct r; [|lia]. destruct e as [|[|[|[|e]]]]; reflexivity. }
  destruct CL as (cus' & EC & HD).
  pose (base := fun r e : nat => mkL ZR 2 2 (fun i j => 1%Z)).
  pose (Ms := fun r e : nat => if e <? 4 then mkL ZR 2 2 (fun i j => if existsb (Nat.eqb i) [0] then 0%Z else 1%Z) else mkL ZR 2 2 (fun i j => 1%Z)).
  pose (A := fun a b : nat => bsum (seq 0 1) (fun r => bsum (elements (nth 0 g20' []) r) (fun e =>
     match CGM_getitem 1 g20' Silly r e, CGM_getitem 1 g20' Silly r e with Some gi, Some gj => scat ZR gi gj (ent ZR (Ms r e)) a b | _, _ => r0 end))).
  specialize (H 1 g20' [6] 0%Z (fun _ => []) cus' base A W).
  assert (Z0 : forall b, A (row_of (sum [6]) 0) b = 0%Z).
  { apply H.
    - intros g [<-|[]]. apply regular_check_ok. reflexivity.
    - intros M. apply (once_check_ok 1 g20' [6] M W). reflexivity.
    - intros r e gi gj E1 E2. assert (L : forall r e v, CGM_getitem 1 g20' Silly r e = Some v -> length v = 2).
      { clear. intros r e v E. destruct r as [|[|r]]; destruct e as [|[|[|[|[|e]]]]]; vm_compute in E; try discriminate; injection E as <-; reflexivity. }
      rewrite (L _ _ _ E1), (L _ _ _ E2). auto.
    - exact EC.
    - exists Ms. split; [|reflexivity]. intros r e Hr _. unfold local_matrix. rewrite HD by assumption. unfold Ms. destruct (e <? 4); reflexivity. }
  specialize (Z0 0). vm_compute in Z0. discriminate.
Qed.
Print Assumptions C20_capped_search_refuted.

(** an element having the dof twice (periodic boundaries) keeps its second contribution *)
Definition g20p : list GMat := [ [ [(0, [0; 1; 0])] ] ].
Theorem C20_repeated_dof_refuted :
  ~ (forall SIZE gms ns m cus cus' base A', well_numbered SIZE gms ns -> (forall g, In g gms -> regular g) ->
     sizes_match ZR SIZE gms gms base ->
     clear_global_row ZR SIZE gms None m cus = Some cus' -> assembled ZR SIZE gms gms base cus' A' ->
     forall b, A' (row_of (sum ns) m) b = 0%Z).
Proof.
  intros H. assert (W : well_numbered 1 g20p [2]) by (apply wn_check_ok; reflexivity).
  assert (CL : exists cus', clear_global_row ZR 1 g20p None 0 (fun _ => []) = Some cus' /\ dget (cus' 0) 0 = [clr 0]).
  { eexists. split; reflexivity. }
  destruct CL as (cus' & EC & HD).
  pose (base := fun r e : nat => mkL ZR 3 3 (fun i j => 1%Z)).
  pose (Ms := fun r e : nat => mkL ZR 3 3 (fun i j => if existsb (Nat.eqb i) [0] then 0%Z else 1%Z)).
  pose (A := fun a b : nat => bsum (seq 0 1) (fun r => bsum (elements (nth 0 g20p []) r) (fun e =>
     match CGM_getitem 1 g20p Silly r e, CGM_getitem 1 g20p Silly r e with Some gi, Some gj => scat ZR gi gj (ent ZR (Ms r e)) a b | _, _ => r0 end))).
  assert (Z0 : forall b, A (row_of (sum [2]) 0) b = 0%Z).
  { apply (H 1 g20p [2] 0%Z (fun _ => []) cus' base A W).
    - intros g [<-|[]]. apply regular_check_ok. reflexivity.
    - intros r e gi gj E1 E2. assert (L : forall r e v, CGM_getitem 1 g20p Silly r e = Some v -> length v = 3).
      { clear. intros r e v E. destruct r as [|[|r]]; destruct e as [|e]; vm_compute in E; try discriminate; injection E as <-; reflexivity. }
      rewrite (L _ _ _ E1), (L _ _ _ E2). auto.
    - exact EC.
    - exists Ms. split; [|reflexivity]. intros r e Hr He. destruct r; [|lia]. destruct He as [<-|[]]. unfold local_matrix. cbn [fst]. rewrite HD. reflexivity. }
  specialize (Z0 0). vm_compute in Z0. discriminate.
Qed.
Print Assumptions C20_repeated_dof_refuted.

(** C21 *)
Theorem C21_set_assembled_vector_entry : forall K SIZE gms ns, well_numbered SIZE gms ns ->
  (forall g, In g gms -> regular g) -> ascending gms ->
  forall N m, (- Z.of_nat (sum ns) <= m < Z.of_nat (sum ns))%Z ->
  within_cap SIZE gms N (row_of (sum ns) m) -> once SIZE gms (row_of (sum ns) m) ->
  forall v cus, exists cus', set_assembled_V_i_to K SIZE gms N m v cus = Some cus' /\
    forall base A, vsizes_match K SIZE gms base -> vassembled K SIZE gms base cus A ->
      vassembled K SIZE gms base cus' (fun a => if a =? row_of (sum ns) m then v else A a).
Proof. exact vset_ok. Qed.
Print Assumptions C21_set_assembled_vector_entry.
Example C21_ex : ascending g20 /\
  option_map (fun c => (c 0, c 1)) (set_assembled_V_i_to ZR 2 g20 None 2 9%Z (fun _ => [])) = Some ([(1, [slet 1 9%Z])], [(2, [cletr 0])]).
Proof.
  split; [|reflexivity]. intros g r [<-|[<-|[]]]; destruct r as [|[|[|r]]]; vm_compute; repeat constructor.
Qed.

(** with a core storing its elements in another order the method fails an assertion *)
Theorem C21_any_order_refuted :
  ~ (forall SIZE gms ns, well_numbered SIZE gms ns -> (forall g, In g gms -> regular g) ->
     forall m, (- Z.of_nat (sum ns) <= m < Z.of_nat (sum ns))%Z -> (forall M, once SIZE gms M) ->
     forall v cus, set_assembled_V_i_to ZR SIZE gms None m v cus <> None).
Proof.
  intros H. pose (g := [[[(1, [0; 1]); (0, [0; 2])]]] : list GMat).
  assert (W : well_numbered 1 g [3]) by (apply wn_check_ok; reflexivity).
  apply (H 1 g [3] W) with (m := 0%Z) (v := 5%Z) (cus := fun _ => []).
  - intros x [<-|[]]. apply regular_check_ok. reflexivity.
  - simpl. lia.
  - intros M. apply (once_check_ok 1 g [3] M W). reflexivity.
  - reflexivity.
Qed.
Print Assumptions C21_any_order_refuted.

(** C22: afterwards the solutions are exactly the vectors with the prescribed unknown that solve the other rows *)
Theorem C22_set_unknown : forall K SIZE rgms cgms ns ms,
  well_numbered SIZE rgms ns -> well_numbered SIZE cgms ms -> same_cores SIZE (nth 0 rgms []) (nth 0 cgms []) ->
  (forall g, In g rgms -> regular g) -> (forall g, In g cgms -> regular g) -> ascending rgms -> sum ns = sum ms ->
  forall choose, (forall l, l <> [] -> In (choose l) l) ->
  forall N m, (- Z.of_nat (sum ns) <= m < Z.of_nat (sum ns))%Z ->
  let M := row_of (sum ns) m in
  within_cap SIZE rgms N M -> within_cap SIZE cgms N M -> once SIZE rgms M -> once SIZE cgms M ->
  forall v Ac bc Ac' bc', set_unknown_to K choose SIZE rgms cgms rgms N m v Ac bc = Some (Ac', bc') ->
  forall Ab Bb A b, sizes_match K SIZE rgms cgms Ab -> vsizes_match K SIZE rgms Bb ->
    assembled K SIZE rgms cgms Ab Ac A -> vassembled K SIZE rgms Bb bc b ->
  exists A' b', assembled K SIZE rgms cgms Ab Ac' A' /\ vassembled K SIZE rgms Bb bc' b' /\
    forall x, solves K (sum ns) A' b' x <->
      x M = v /\ forall a, a < sum ns -> a <> M -> bsum (seq 0 (sum ns)) (fun c => rmul (A a c) (x c)) = b a.
Proof. exact unknown_ok. Qed.
Print Assumptions C22_set_unknown.

(** it raises only if no element couples the unknown with its equation *)
Theorem C22_set_unknown_raises : forall K SIZE rgms cgms ns ms,
  well_numbered SIZE rgms ns -> well_numbered SIZE cgms ms -> same_cores SIZE (nth 0 rgms []) (nth 0 cgms []) ->
  (forall g, In g rgms -> regular g) -> (forall g, In g cgms -> regular g) -> ascending rgms -> sum ns = sum ms ->
  forall choose, (forall l, l <> [] -> In (choose l) l) ->
  forall N m, (- Z.of_nat (sum ns) <= m < Z.of_nat (sum ns))%Z ->
  let M := row_of (sum ns) m in
  within_cap SIZE rgms N M -> within_cap SIZE cgms N M -> once SIZE rgms M -> once SIZE cgms M ->
  forall v Ac bc, set_unknown_to K choose SIZE rgms cgms rgms N m v Ac bc = None -> ~ coupled SIZE rgms cgms M M.
Proof. exact unknown_raises. Qed.
Print Assumptions C22_set_unknown_raises.
Example C22_ex : match set_unknown_to ZR (fun l => hd 0 l) 2 g20 g20 g20 None 2 9%Z (fun _ => []) (fun _ => []) with
  | Some (A, b) => A 0 = [(1, [clr 1; salv 1 1 1%Z])] /\ A 1 = [(2, [clr 0; salv 0 0 0%Z])] /\ b 0 = [(1, [slet 1 9%Z])] /\ b 1 = [(2, [cletr 0])]
  | None => False end.
Proof. repeat split. Qed.

(** C23 *)
Theorem C23_block_matrix : forall (K : CRing) SIZE rgms cgms ns ms,
  well_numbered SIZE rgms ns -> well_numbered SIZE cgms ms -> same_cores SIZE (nth 0 rgms []) (nth 0 cgms []) ->
  forall r e (blocks : list (list (option (lmat K)))) B, r < SIZE -> In e (elements (nth 0 rgms []) r) ->
  length blocks = length rgms -> (forall row, In row blocks -> length row = length cgms) ->
  (forall p q M, nth q (nth p blocks []) None = Some M ->
     exists gi gj, gv_of (nth p rgms []) r e = Some gi /\ gv_of (nth q cgms []) r e = Some gj /\
       nrow K M = length gi /\ ncol K M = length gj) ->
  bmat K blocks = Some B ->
  exists gi gj, CGM_getitem SIZE rgms Silly r e = Some gi /\ CGM_getitem SIZE cgms Silly r e = Some gj /\
  forall p q a b, p < length rgms -> q < length cgms -> a < nth p ns 0 -> b < nth q ms 0 ->
    scat K gi gj (ent K B) (sum (firstn p ns) + a) (sum (firstn q ms) + b) =
    match nth q (nth p blocks []) None, gv_of (nth p rgms []) r e, gv_of (nth q cgms []) r e with
    | Some M, Some gp, Some gq => scat K gp gq (ent K M) a b
    | _, _, _ => r0
    end.
Proof. exact bmat_chain. Qed.
Print Assumptions C23_block_matrix.

(** a block matrix of consistent shapes with a block in every row and column can be built *)
Theorem C23_block_matrix_defined : forall (K : CRing) (blocks : list (list (option (lmat K)))) nc h w,
  blocks <> [] -> (forall row, In row blocks -> length row = nc) ->
  (forall p q M, nth q (nth p blocks []) None = Some M -> nrow K M = h p /\ ncol K M = w q) ->
  (forall p, p < length blocks -> exists q M, nth q (nth p blocks []) None = Some M) ->
  (forall q, q < nc -> exists p M, nth q (nth p blocks []) None = Some M) ->
  bmat K blocks <> None.
Proof. exact bmat_defined. Qed.
Print Assumptions C23_block_matrix_defined.

Theorem C23_concatenated_vector : forall (K : CRing) SIZE gms ns, well_numbered SIZE gms ns ->
  forall r e (vs : list (lvec K)), r < SIZE -> In e (elements (nth 0 gms []) r) -> length vs = length gms ->
  (forall p v, nth_error vs p = Some v -> exists gi, gv_of (nth p gms []) r e = Some gi /\ vlen K v = length gi) ->
  exists gi, CGM_getitem SIZE gms Silly r e = Some gi /\
  forall p v a, nth_error vs p = Some v -> a < nth p ns 0 ->
    vscat K gi (vent K (vstack K vs)) (sum (firstn p ns) + a) =
    match gv_of (nth p gms []) r e with Some gp => vscat K gp (vent K v) a | None => r0 end.
Proof. exact vstack_chain. Qed.
Print Assumptions C23_concatenated_vector.

Definition b23 : list (list (option (lmat ZR))) :=
  [[Some (mkL ZR 2 2 (fun i j => Z.of_nat (10 * i + j))); Some (mkL ZR 2 1 (fun i _ => Z.of_nat (5 + i)))];
   [Some (mkL ZR 1 2 (fun _ j => Z.of_nat (7 + j))); None]].
Example C23_ex : option_map (fun B => map (fun i => map (ent ZR B i) (seq 0 3)) (seq 0 3)) (bmat ZR b23) =
  Some [[0; 1; 5]; [10; 11; 6]; [7; 8; 0]]%Z /\
  match bmat ZR b23 with Some B => map (fun a => map (scat ZR [1; 2; 5] [1; 2; 5] (ent ZR B) a) [0; 1; 2; 4; 5]) [0; 1; 2; 4; 5] | None => [] end =
  [[0; 0; 0; 0; 0]; [0; 0; 1; 0; 5]; [0; 10; 11; 0; 6]; [0; 0; 0; 0; 0]; [0; 7; 8; 0; 0]]%Z.
Proof. split; reflexivity. Qed.
