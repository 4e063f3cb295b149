(** Properties C45-C51, C76-C78. Nothing but their statements and examples. *)
From Coq Require Import List Arith ZArith Bool Lia.
From Verif Require Import Prelude RingSum SpaceModel SpaceSpec SpaceProofs SpaceProofs2 SpaceProofs3 SpaceProofs4 SpaceProofs5
  SpaceProofs6 SpaceProofs7 SpaceProofs8 SpaceProofs9.
Import ListNotations.

Definition table (nr nc : nat) (M : option (nat -> nat -> Z)) : option (list (list Z)) :=
  option_map (fun M => map (fun r => map (M r) (seq 0 nc)) (seq 0 nr)) M.

(** C45: the local numberings are bijections onto 0 .. num_basis - 1, component by component, first index fastest *)
Theorem C45_forms3 : forall px py pz, let p := [px; py; pz] in
  (exists a, numbering (shapes0 p) = Some a /\ numbers p nodes3 (entry a) (nb (shapes0 p)) /\ one_to_one (entry a) (nb (shapes0 p))) /\
  (exists a, numbering (shapes1 p) = Some a /\ numbers p edges3 (entry a) (nb (shapes1 p)) /\ one_to_one (entry a) (nb (shapes1 p))) /\
  (exists a, numbering (shapes2 p) = Some a /\ numbers p faces3 (entry a) (nb (shapes2 p)) /\ one_to_one (entry a) (nb (shapes2 p))) /\
  (exists a, numbering (shapes3 p) = Some a /\ numbers p volumes3 (entry a) (nb (shapes3 p)) /\ one_to_one (entry a) (nb (shapes3 p))).
Proof. exact forms3. Qed.
Print Assumptions C45_forms3.
Theorem C45_forms2 : forall px py, let p := [px; py] in
  (exists a, numbering (shapes0 p) = Some a /\ numbers p nodes2 (entry a) (nb (shapes0 p)) /\ one_to_one (entry a) (nb (shapes0 p))) /\
  (exists a, numbering (shapes1 p) = Some a /\ numbers p edges2_inner (entry a) (nb (shapes1 p)) /\ one_to_one (entry a) (nb (shapes1 p))) /\
  (exists a, numbering (shapes2 p) = Some a /\ numbers p edges2_outer (entry a) (nb (shapes2 p)) /\ one_to_one (entry a) (nb (shapes2 p))) /\
  (exists a, numbering (shapes3 p) = Some a /\ numbers p faces2 (entry a) (nb (shapes3 p)) /\ one_to_one (entry a) (nb (shapes3 p))).
Proof. exact forms2. Qed.
Print Assumptions C45_forms2.
Theorem C45_counts : forall px py pz, let p := [px; py; pz] in
  nb (shapes0 p) = (px+1)*(py+1)*(pz+1) /\
  nb (shapes1 p) = px*(py+1)*(pz+1) + (px+1)*py*(pz+1) + (px+1)*(py+1)*pz /\
  nb (shapes2 p) = (px+1)*py*pz + px*(py+1)*pz + px*py*(pz+1) /\
  nb (shapes3 p) = px*py*pz.
Proof. exact counts3. Qed.
Print Assumptions C45_counts.
(** the list of cells used in these statements is right: the edges of the box, each once; the same for the others *)
Theorem C45_cells : forall px py pz ts, In ts [nodes3; edges3; faces3; volumes3] ->
  NoDup (cells [px; py; pz] ts) /\ forall c, In c (cells [px; py; pz] ts) <-> exists t, In t ts /\ is_cell [px; py; pz] t c.
Proof. exact cells_all3. Qed.
Print Assumptions C45_cells.
Example C45_ex : option_map (fun a => (map (fun i => entry a 0 [i; 1; 0]) [0; 1; 2], entry a 1 [0; 0; 0], entry a 2 [2; 1; 0], entry a 2 [2; 1; 1]))
  (numbering (shapes1 [2; 1; 1])) = Some ([Some 2; Some 3; None], Some 8, Some 19, None) /\ nb (shapes1 [2; 1; 1]) = 20 /\
  nth_error (cells [2; 1; 1] edges3) 19 = Some [(false, 2); (false, 1); (true, 0)].
Proof. vm_compute. repeat split. Qed.

(** C46, C47: the coboundary applied twice *)
Theorem C46_grad_curl : forall (K : CRing) px py pz, exists E F, E10 [px; py; pz] = Some E /\ E21 [px; py; pz] = Some F /\
  forall (u : nat -> K) r, r < length (cells [px; py; pz] faces3) ->
  apply_mat (length (cells [px; py; pz] edges3)) F (apply_mat (length (cells [px; py; pz] nodes3)) E u) r = r0.
Proof. exact dd_10. Qed.
Print Assumptions C46_grad_curl.
Theorem C46_curl_div : forall (K : CRing) px py pz, exists E F, E21 [px; py; pz] = Some E /\ E32 [px; py; pz] = Some F /\
  forall (u : nat -> K) r, r < length (cells [px; py; pz] volumes3) ->
  apply_mat (length (cells [px; py; pz] faces3)) F (apply_mat (length (cells [px; py; pz] edges3)) E u) r = r0.
Proof. exact dd_21. Qed.
Print Assumptions C46_curl_div.
Example C46_ex : option_map (fun E => map (apply_mat (K := ZR) 8 E (fun i => Z.of_nat (i * i))) (seq 0 12)) (E10 [1; 1; 1]) =
  Some [1; 5; 9; 13; 4; 8; 20; 24; 16; 24; 32; 40]%Z.
Proof. vm_compute. reflexivity. Qed.
Theorem C47_inner : forall (K : CRing) px py, exists E F, EI10 [px; py] = Some E /\ EI21 [px; py] = Some F /\
  forall (u : nat -> K) r, r < length (cells [px; py] faces2) ->
  apply_mat (length (cells [px; py] edges2_inner)) F (apply_mat (length (cells [px; py] nodes2)) E u) r = r0.
Proof. exact dd_I. Qed.
Print Assumptions C47_inner.
Theorem C47_outer : forall (K : CRing) px py, exists E F, EO10 [px; py] = Some E /\ EO21 [px; py] = Some F /\
  forall (u : nat -> K) r, r < length (cells [px; py] faces2) ->
  apply_mat (length (cells [px; py] edges2_outer)) F (apply_mat (length (cells [px; py] nodes2)) E u) r = r0.
Proof. exact dd_O. Qed.
Print Assumptions C47_outer.
Example C47_ex : table 7 6 (EO10 [2; 1]) =
  Some [[-1; 0; 0; 1; 0; 0]; [0; -1; 0; 0; 1; 0]; [0; 0; -1; 0; 0; 1];
        [1; -1; 0; 0; 0; 0]; [0; 1; -1; 0; 0; 0]; [0; 0; 0; 1; -1; 0]; [0; 0; 0; 0; 1; -1]]%Z.
Proof. vm_compute. reflexivity. Qed.

(** C48: the incidence matrices hold the incidence numbers of the cells *)
Theorem C48_3d : forall px py pz, let p := [px; py; pz] in
  (exists E, E10 p = Some E /\ realises E (cells p edges3) (cells p nodes3) orient3 orient3) /\
  (exists E, E21 p = Some E /\ realises E (cells p faces3) (cells p edges3) orient3 orient3) /\
  (exists E, E32 p = Some E /\ realises E (cells p volumes3) (cells p faces3) orient3 orient3).
Proof. exact (fun px py pz => conj (E10_real px py pz) (conj (E21_real px py pz) (E32_real px py pz))). Qed.
Print Assumptions C48_3d.
Theorem C48_2d : forall px py, let p := [px; py] in
  (exists E, EI10 p = Some E /\ realises E (cells p edges2_inner) (cells p nodes2) orient_in orient_in) /\
  (exists E, EI21 p = Some E /\ realises E (cells p faces2) (cells p edges2_inner) orient_in orient_in) /\
  (exists E, EO10 p = Some E /\ realises E (cells p edges2_outer) (cells p nodes2) orient_out orient_out) /\
  (exists E, EO21 p = Some E /\ realises E (cells p faces2) (cells p edges2_outer) orient_out orient_out).
Proof. exact (fun px py => conj (EI10_real px py) (conj (EI21_real px py) (conj (EO10_real px py) (EO21_real px py)))). Qed.
Print Assumptions C48_2d.
Example C48_ex : table 1 6 (E32 [1; 1; 1]) = Some [[-1; 1; -1; 1; -1; 1]]%Z /\
  map (fun t => Z.mul (orient3 t) (inc [(true, 0); (true, 0); (true, 0)] t)) (cells [1; 1; 1] faces3) = [-1; 1; -1; 1; -1; 1]%Z.
Proof. vm_compute. repeat split. Qed.

(** C49: row r of a trace matrix has the sign of its side at the r-th dof lying on a side, and zeros *)
Theorem C49_trace : forall px py pz, Forall (fun n => 1 <= n) [px; py; pz] -> let p := [px; py; pz] in
  (exists M, trace0 outward p = Some M /\ restricts (on_sides p nodes3 sides3) (cells p nodes3) outward_sign M) /\
  (exists M, trace1 outward p = Some M /\ restricts (on_sides p edges3 sides3) (cells p edges3) outward_sign M) /\
  (exists M, trace2 outward p = Some M /\ restricts (on_sides p faces3 sides3) (cells p faces3) outward_sign M).
Proof. exact (fun px py pz F => conj (trace0_ok px py pz F outward) (conj (trace1_ok px py pz F outward) (trace2_ok px py pz F outward))). Qed.
Print Assumptions C49_trace.
Theorem C49_selective : forall px py pz, Forall (fun n => 1 <= n) [px; py; pz] -> let p := [px; py; pz] in
  (exists M, trace0 plus p = Some M /\ restricts (on_sides p nodes3 sides3) (cells p nodes3) (fun _ => 1%Z) M) /\
  (exists M, trace1 plus p = Some M /\ restricts (on_sides p edges3 sides3) (cells p edges3) (fun _ => 1%Z) M) /\
  (exists M, trace2 plus p = Some M /\ restricts (on_sides p faces3 sides3) (cells p faces3) (fun _ => 1%Z) M).
Proof. exact (fun px py pz F => conj (trace0_ok px py pz F plus) (conj (trace1_ok px py pz F plus) (trace2_ok px py pz F plus))). Qed.
Print Assumptions C49_selective.
(** the matrices of the single sides *)
Theorem C49_sides : forall px py pz, Forall (fun n => 1 <= n) [px; py; pz] -> let p := [px; py; pz] in
  (exists M, trace0 outward p = Some M /\ side_blocks p nodes3 outward_sign (blocks 0 (onsides on0 p) M)) /\
  (exists M, trace1 outward p = Some M /\ side_blocks p edges3 outward_sign (blocks 0 (onsides on1 p) M)) /\
  (exists M, trace2 outward p = Some M /\ side_blocks p faces3 outward_sign (blocks 0 (onsides on2 p) M)).
Proof. exact (fun px py pz F => conj (trace0_sides px py pz F outward) (conj (trace1_sides px py pz F outward) (trace2_sides px py pz F outward))). Qed.
Print Assumptions C49_sides.
(** such a matrix applied to a cochain: the signed values on the boundary *)
Theorem C49_cochain : forall (K : CRing) A (L : list (A * cell)) cs sg T (u : nat -> K) r s x n,
  NoDup cs -> restricts L cs sg T -> nth_error L r = Some (s, x) -> nth_error cs n = Some x ->
  apply_mat (length cs) T u r = zmul (sg s) (u n).
Proof. exact (fun K A => @restricts_apply K A). Qed.
Print Assumptions C49_cochain.
(** 2D: the signs are + on U and R, - on D and L *)
Theorem C49_outer2d : forall px py, Forall (fun n => 1 <= n) [px; py] ->
  exists M, traceO [px; py] = Some M /\ restricts (on_sides [px; py] edges2_outer sides2) (cells [px; py] edges2_outer)
    (fun s => if Nat.eqb (fst s) 0 then (- outward_sign s)%Z else outward_sign s) M.
Proof. exact traceO_signs. Qed.
Print Assumptions C49_outer2d.
Example C49_ex : table 10 11 (trace2 outward [2; 1; 1]) =
  Some [[-1; 0; 0; 0; 0; 0; 0; 0; 0; 0; 0]; [0; 0; 1; 0; 0; 0; 0; 0; 0; 0; 0];
        [0; 0; 0; -1; 0; 0; 0; 0; 0; 0; 0]; [0; 0; 0; 0; -1; 0; 0; 0; 0; 0; 0];
        [0; 0; 0; 0; 0; 1; 0; 0; 0; 0; 0]; [0; 0; 0; 0; 0; 0; 1; 0; 0; 0; 0];
        [0; 0; 0; 0; 0; 0; 0; -1; 0; 0; 0]; [0; 0; 0; 0; 0; 0; 0; 0; -1; 0; 0];
        [0; 0; 0; 0; 0; 0; 0; 0; 0; 1; 0]; [0; 0; 0; 0; 0; 0; 0; 0; 0; 0; 1]]%Z.
Proof. vm_compute. reflexivity. Qed.

(** C50: the local gathering of the non-hybrid traces *)
Theorem C50_local_gathering : forall px py pz, Forall (fun n => 1 <= n) [px; py; pz] -> let p := [px; py; pz] in
  (exists L N, lg0 p = Some L /\ numbers_surface p nodes3 L N /\ Z.of_nat N = nt0_nonhybrid p) /\
  (exists L N, lg1 p = Some L /\ numbers_surface p edges3 L N /\ Z.of_nat N = nt1_nonhybrid p) /\
  (exists L N, lg2 p = Some L /\ numbers_surface p faces3 L N /\ Z.of_nat N = nt2_nonhybrid p).
Proof. exact (fun px py pz F => conj (lg0_ok px py pz F) (conj (lg1_ok px py pz F) (lg2_ok px py pz F))). Qed.
Print Assumptions C50_local_gathering.
Example C50_ex : lg0 [2; 1; 1] = Some [[0; 1; 2; 3]; [4; 5; 6; 7]; [0; 8; 4; 2; 9; 6]; [1; 10; 5; 3; 11; 7]; [0; 8; 4; 1; 10; 5]; [2; 9; 6; 3; 11; 7]]%Z
  /\ nt0_nonhybrid [2; 1; 1] = 12%Z.
Proof. vm_compute. repeat split. Qed.

(** C51: the internal dofs *)
Theorem C51_internal : forall px py pz, Forall (fun n => 1 <= n) [px; py; pz] -> let p := [px; py; pz] in
  let right ts l := NoDup l /\ forall n, In n l <-> exists c, nth_error (cells p ts) n = Some c /\ on_surface p c = false in
  (exists l, internal0 p = Some l /\ right nodes3 l) /\ (exists l, internal1 p = Some l /\ right edges3 l) /\
  (p <> [1; 1; 1] -> exists l, internal2 p = Some l /\ right faces3 l).
Proof. exact internal_ok. Qed.
Print Assumptions C51_internal.
(** the 2-form of lowest degree has no internal dofs, but the call raises *)
Theorem C51_lowest_degree_refuted :
  filter (fun c => negb (on_surface [1; 1; 1] c)) (cells [1; 1; 1] faces3) = [] /\ internal2 [1; 1; 1] = None.
Proof. vm_compute. split; reflexivity. Qed.
Print Assumptions C51_lowest_degree_refuted.
Example C51_ex : internal0 [2; 2; 3] = Some [13; 22] /\ internal2 [2; 1; 1] = Some [1].
Proof. vm_compute. repeat split. Qed.

(** C76: the selective matrices of the edge forms and the numbers of the dofs on an edge *)
Theorem C76_edge_matrices : forall px py pz, Forall (fun n => 1 <= n) [px; py; pz] -> let p := [px; py; pz] in
  (exists M, edge0 p = Some M /\ restricts (on_edges p nodes3 edge_sides3) (cells p nodes3) (fun _ => 1%Z) M) /\
  (exists M, edge1 p = Some M /\ restricts (on_edges p edges3 edge_sides3) (cells p edges3) (fun _ => 1%Z) M).
Proof. exact (fun px py pz F => conj (edge0_ok px py pz F) (edge1_ok px py pz F)). Qed.
Print Assumptions C76_edge_matrices.
Theorem C76_edge_dofs0 : forall px py pz, Forall (fun n => 1 <= n) [px; py; pz] -> let p := [px; py; pz] in
  forall m e, nth_error edge_sides3 m = Some e ->
  exists l, edge_dofs (map (fun x => x + 1) p) m = Some l /\ length l = length (filter (on_edge p e) (cells p nodes3)) /\
    forall j r, nth_error l j = Some r ->
      nth_error (on_edges p nodes3 edge_sides3) r = option_map (pair e) (nth_error (filter (on_edge p e) (cells p nodes3)) j).
Proof. exact edge_dofs0_ok. Qed.
Print Assumptions C76_edge_dofs0.
Theorem C76_edge_dofs1 : forall px py pz, Forall (fun n => 1 <= n) [px; py; pz] -> let p := [px; py; pz] in
  forall m e, nth_error edge_sides3 m = Some e ->
  exists l, edge_dofs p m = Some l /\ length l = length (filter (on_edge p e) (cells p edges3)) /\
    forall j r, nth_error l j = Some r ->
      nth_error (on_edges p edges3 edge_sides3) r = option_map (pair e) (nth_error (filter (on_edge p e) (cells p edges3)) j).
Proof. exact edge_dofs1_ok. Qed.
Print Assumptions C76_edge_dofs1.
Example C76_ex : edge_dofs [2; 1; 3] 6 = Some [10] /\
  nth_error (on_edges [2; 1; 3] edges3 edge_sides3) 10 = Some (((0, false), (2, true)), [(false, 0); (true, 0); (false, 3)]) /\
  option_map (fun M => filter (fun c => negb (Z.eqb (M 10 c) 0)) (seq 0 63)) (edge1 [2; 1; 3]) = Some [25].
Proof. vm_compute. repeat split. Qed.

(** C77: the topological connection: A u = B t exactly when t are the values of u on the surface *)
Theorem C77_connection : forall (K : CRing) px py pz, Forall (fun n => 1 <= n) [px; py; pz] -> let p := [px; py; pz] in
  (exists L N A B, lg0 p = Some L /\ connect0 p = (Some A, Some B) /\ Z.of_nat N = nt0_nonhybrid p /\ coupled K p nodes3 N L A B) /\
  (exists L N A B, lg2 p = Some L /\ connect2 p = (Some A, Some B) /\ Z.of_nat N = nt2_nonhybrid p /\ coupled K p faces3 N L A B).
Proof. exact (fun K px py pz F => conj (connect0_ok K px py pz F) (connect2_ok K px py pz F)). Qed.
Print Assumptions C77_connection.
Example C77_ex : table 6 6 (fst (connect2 [1; 1; 1])) =
  Some [[-1; 0; 0; 0; 0; 0]; [0; 1; 0; 0; 0; 0]; [0; 0; -1; 0; 0; 0]; [0; 0; 0; 1; 0; 0]; [0; 0; 0; 0; -1; 0]; [0; 0; 0; 0; 0; 1]]%Z.
Proof. vm_compute. reflexivity. Qed.

(** C78: discrete Gauss theorem: the sum of the discrete divergence is the sum of the trace with outward signs *)
Theorem C78_gauss : forall (K : CRing) px py pz, Forall (fun n => 1 <= n) [px; py; pz] -> let p := [px; py; pz] in
  exists E T, E32 p = Some E /\ trace2 outward p = Some T /\
  forall u : nat -> K,
  bsum (seq 0 (length (cells p volumes3))) (apply_mat (length (cells p faces3)) E u) =
  bsum (seq 0 (length (on_sides p faces3 sides3))) (apply_mat (length (cells p faces3)) T u).
Proof. exact gauss3. Qed.
Print Assumptions C78_gauss.
(** in 2D it fails: the outer 1-trace has the signs of U and D the other way round *)
Theorem C78_gauss2d_refuted : ~ (forall px py, Forall (fun n => 1 <= n) [px; py] -> let p := [px; py] in
  forall E T, EO21 p = Some E -> traceO p = Some T -> forall u : nat -> ZR,
  bsum (seq 0 (length (cells p faces2))) (apply_mat (length (cells p edges2_outer)) E u) =
  bsum (seq 0 (length (on_sides p edges2_outer sides2))) (apply_mat (length (cells p edges2_outer)) T u)).
Proof. exact gauss2_false. Qed.
Print Assumptions C78_gauss2d_refuted.
Example C78_ex : option_map (fun E => bsum (seq 0 2) (apply_mat (K := ZR) 11 E (fun i => Z.of_nat (i * i)))) (E32 [2; 1; 1]) = Some 108%Z /\
  option_map (fun T => bsum (seq 0 10) (apply_mat (K := ZR) 11 T (fun i => Z.of_nat (i * i)))) (trace2 outward [2; 1; 1]) = Some 108%Z.
Proof. vm_compute. split; reflexivity. Qed.
