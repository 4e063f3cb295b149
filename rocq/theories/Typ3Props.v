(* Properties of types of 3D regions. *)
From Coq Require Import Reals.
From Verif Require Import TfiModel TfiSpec Typ3Model Typ3Spec Typ3Proofs Typ3Example.
Local Open Scope R_scope.

(** C159: a region is chaotic iff one of its sides is no plane; with six planes it is orthogonal, with the sizes of the box, iff its corners are those of an axis-parallel box, and raises otherwise *)
Theorem C159_classify : forall planes k,
  (classify3 planes k = t3Chaos <-> planes = false) /\
  (forall l, classify3 planes k = t3Orth l <-> planes = true /\ exists lo hi, below lo hi /\ k = box lo hi /\ l = sizes lo hi) /\
  (classify3 planes k = t3Raise <-> planes = true /\ ~ exists lo hi, below lo hi /\ k = box lo hi).
Proof. exact classify3_ok. Qed.
Print Assumptions C159_classify.
Example C159_classify_ex : below (1, 2, 3) (3, 5, 9) /\ classify3 true brick = t3Orth (2, 3, 6).
Proof. exact (conj brick_below brick_orth). Qed.
(** the Jacobian matrix of the transfinite map of an orthogonal region is the constant diagonal matrix of the lengths *)
Theorem C159_jacobian : forall planes k lx ly lz, classify3 planes k = t3Orth (lx, ly, lz) -> forall r s t,
  tf_Jacobian_matrix (plane_sides k) r s t = ((lx, 0, 0), (0, ly, 0), (0, 0, lz)).
Proof. exact orth_jacobian3. Qed.
Print Assumptions C159_jacobian.
Example C159_jacobian_ex : tf_Jacobian_matrix (plane_sides brick) (1 / 3) (1 / 4) (1 / 5) = ((2, 0, 0), (0, 3, 0), (0, 0, 6)).
Proof. exact (orth_jacobian3 true brick 2 3 6 brick_orth _ _ _). Qed.
(** the lengths of an element are those of the box it is mapped to *)
Theorem C159_element : forall planes k i j l dx dy dz, classify_element3 (classify3 planes k) (i, j, l) = t3Orth (dx, dy, dz) ->
  0 < dx /\ 0 < dy /\ 0 < dz /\ exists o : point, forall u v w,
  part (tf_map (plane_sides k)) i j l cX u v w = get o cX + dx * u /\
  part (tf_map (plane_sides k)) i j l cY u v w = get o cY + dy * v /\
  part (tf_map (plane_sides k)) i j l cZ u v w = get o cZ + dz * w.
Proof. exact element_map. Qed.
Print Assumptions C159_element.
(** which elements get a type *)
Theorem C159_element_types : forall t i j l,
  (forall d, classify_element3 t (i, j, l) = t3Orth d <-> sub_cube i j l /\ exists lx ly lz, t = t3Orth (lx, ly, lz) /\
     d = ((snd i - fst i) * lx, (snd j - fst j) * ly, (snd l - fst l) * lz)) /\
  (classify_element3 t (i, j, l) = t3Chaos <-> sub_cube i j l /\ t = t3Chaos).
Proof. intros t i j l. exact (conj (element_orth t i j l) (element_chaos t i j l)). Qed.
Print Assumptions C159_element_types.
Example C159_element_ex : classify_element3 (classify3 true brick) ((0, 1 / 2), (1 / 3, 1), (0, 1)) = t3Orth (1, 2, 6).
Proof. exact brick_element. Qed.
(** orthogonal elements with the same lengths, of whatever regions, are translations of each other *)
Theorem C159_same_lengths : forall planes k i j l planes' k' i' j' l' d,
  classify_element3 (classify3 planes k) (i, j, l) = t3Orth d ->
  classify_element3 (classify3 planes' k') (i', j', l') = t3Orth d ->
  exists o : point, forall c u v w, part (tf_map (plane_sides k')) i' j' l' c u v w = part (tf_map (plane_sides k)) i j l c u v w + get o c.
Proof. exact same_element. Qed.
Print Assumptions C159_same_lengths.
Example C159_same_lengths_ex : classify_element3 (classify3 true brick) ((0, 1 / 2), (1 / 3, 1), (0, 1)) = t3Orth (1, 2, 6) /\
  classify_element3 (classify3 true brick2) ((1 / 2, 1), (0, 1 / 2), (1 / 4, 3 / 4)) = t3Orth (1, 2, 6).
Proof. exact (conj brick_element brick2_element). Qed.
(** not each region with six plane sides gets a type: the sheared cube x = r + s, y = s, z = t raises *)
Theorem C159_total_refuted : exists k, (forall r s t, tf_map (plane_sides k) cX r s t = r + s /\
  tf_map (plane_sides k) cY r s t = s /\ tf_map (plane_sides k) cZ r s t = t) /\ classify3 true k = t3Raise.
Proof. exact (ex_intro _ sheared (conj sheared_map sheared_raises)). Qed.
Print Assumptions C159_total_refuted.
