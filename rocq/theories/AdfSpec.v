(* What dual cochains and the dual coboundary are, by pairings and integrals. *)
From Coq Require Import Reals List Arith ZArith.
From Verif Require Import Prelude RingSum SpaceModel SpaceSpec TfiModel CtModel CtSpec DiscModel DiscSpec ReconModel ReconSpec TrfModel TrfSpec AdfModel.
Import ListNotations.
Open Scope R_scope.

(* the pairing of two lists of numbers *)
Definition pairing (a b : list R) : R := rsum (combine a b) (fun ab => fst ab * snd ab).
Definition inverse_of (A B : matrix) (n : nat) : Prop :=
  has_shape A n n /\ has_shape B n n /\ forall c, length c = n -> times A (times B c) = c /\ times B (times A c) = c.
(* a dict with exactly the keys els, of lists of n numbers *)
Definition covers (els : list nat) (n : nat) (l : ldict) : Prop :=
  length l = length els /\ forall i, In i els -> exists c, lookup Nat.eqb i l = Some c /\ length c = n.
(* the cells of a k-form, and of a k-trace, side by side *)
Definition form_types (k : nat) : list ctype := match k with 0 => nodes3 | 1 => edges3 | 2 => faces3 | _ => volumes3 end%nat.
Definition form_cells (k : nat) (p : list nat) : list cell := cells p (form_types k).
Definition trace_cells (k : nat) (p : list nat) : list ((nat * bool) * cell) := on_sides p (form_types k) sides3.
(* u is the derivative of v: the incidence numbers of the cells; y is the trace
   of v, with outward signs *)
Definition is_d (k : nat) (p : list nat) (v u : list R) : Prop :=
  length u = length (form_cells (S k) p) /\ exists E, realises E (form_cells (S k) p) (form_cells k p) orient3 orient3 /\ mat_times E v u.
Definition is_trace (k : nat) (p : list nat) (v y : list R) : Prop :=
  y = signed_traces outward_sign p (form_types k) v.
(* the signs of integration by parts: grad, curl, div *)
Definition sign_E (k : nat) : R := match k with 2%nat => 1 | _ => -1 end.
Definition sign_T (k : nat) : R := match k with 2%nat => -1 | _ => 1 end.
(* r is the dual coboundary of the dual k-cochain d with the dual trace cochain t *)
Definition weak_d (k : nat) (p : list nat) (d t r : list R) : Prop :=
  length r = length (form_cells (k - 1) p) /\
  forall v u y, length v = length (form_cells (k - 1) p) -> is_d (k - 1) p v u -> is_trace (k - 1) p v y ->
    pairing v r = sign_E k * pairing u d + sign_T k * pairing y t.
(* the cochains of element i have the right lengths *)
Definition fits (k : nat) (p : list nat) (DFC DTC : nat -> option (list R)) (i : nat) : Prop :=
  exists d t, DFC i = Some d /\ DTC i = Some t /\ length d = length (form_cells k p) /\ length t = length (trace_cells (k - 1) p).
(* the pieces of a trace cochain, side by side *)
Definition side_pieces (k : tdeg) (sp : Space3) (c : list R) (piece : tside -> list R) : Prop :=
  c = flat_map piece all_sides /\ forall s, length (piece s) = nface k sp s.
(* the sum over the six sides, with outward signs *)
Definition outward_sum (f : tside -> R) : R := rsum all_sides (fun s => end_pt s * f s).
(* the mass matrices of the six sides on the diagonal *)
Definition mass6 (k : tdeg) (sp : Space3) (q : Rule3) (J : ejac) : matrix := bdiag (map (trf_mass k sp q J) all_sides).
(* side s of element e, as side cs of element ce: of itself, or of the element
   on the other side *)
Definition seen_from (F : nat -> coord -> R -> R -> R -> R) (e : nat) (s : tside) (ce : nat) (cs : tside) : Prop :=
  (ce = e /\ cs = s) \/ (cs = opposite s /\ meets s (F e) (F ce)).
