(** Cases for C66: two systems whose conditions are not saturated, a row dof with two partners, the cache with an address used twice. *)
From Coq Require Import List Arith ZArith Bool Lia.
From Verif Require Import Prelude RingSum SpaceModel SpaceSpec MeshModel MeshMapModel NumModel NumSpec NumProps NhtModel AssembleModel GatherModel GatherSpec EwcModel AsmModel AsmSpec StrongModel StrongSpec StrongProofs5.
Import ListNotations.

(** * three columns in the shape of an L: the vertical edge at the re-entrant corner *)
Definition L_map : option emap := col_map [(0, 0); (1, 0); (0, 1)] [[1; 1; 1]; [1; 1; 1]; [1; 1; 1]].
Definition two_maps (l : list (nat * nat)) : list (nat * (nat * nat)) := filter (fun x => length (attached_regions (col_corner l) (length l) (fst (snd x)) (snd (snd x))) =? 0) (flat_map (fun r => map (fun i => (2 + r, (r, i))) (seq 0 6)) (seq 0 (length l))).
(** two columns in line; boundary 2 is what is free of the first one, boundary 3 of the second one *)
Definition line_map : option emap :=
  match region_map (col_corner [(0, 0); (1, 0)]) 2 [2; 3] (two_maps [(0, 0); (1, 0)]), boundary_pairs (two_maps [(0, 0); (1, 0)]) [] with
  | Some m, Some pairs => core_map (fun r => option_map fst (region_numbering (fun _ _ => 0) [[1; 1; 1]; [1; 1; 1]] (fun _ => OrderF) r)) [[1; 1; 1]; [1; 1; 1]] (fun r i => name_of (m r i)) [2; 3] pairs [0; 1]
  | _, _ => None
  end.
Definition on_one_core (k : nform) (p : list nat) (bnames : list nat) (om : option emap) (q : request) : option (GMat * list (nat * list nat)) :=
  match om with
  | Some m => match naive k p [m], involved_parts (fun l => l) bnames [m] q with
              | Some g, Some [iEP] => option_map (pair g) (parse_dofs (local_side k p) iEP)
              | _, _ => None
              end
  | None => None
  end.
(** all values 0 *)
Definition zeros (l : list (nat * list nat)) : itp ZR := @mkI ZR l (Some (map (fun ed => (fst ed, map (fun _ => 0%Z) (snd ed))) l)).
Definition ones (n : nat) (r e : nat) : lmat ZR := mkL ZR n n (fun _ _ => 1%Z).
Definition zero_vector (n : nat) (r e : nat) : lvec ZR := mkV ZR n (fun _ => 0%Z).
Definition matrix_of (gms : list GMat) (Ab : nat -> nat -> lmat ZR) (cus : cdict ZR) (a b : nat) : Z :=
  bsum (K := ZR) (seq 0 1) (fun r => bsum (K := ZR) (elements (nth 0 gms []) r) (fun e =>
    match CGM_getitem 1 gms Silly r e, local_matrix ZR Ab cus r e with Some gi, Some M => scat ZR gi gi (ent ZR M) a b | _, _ => 0%Z end)).
Lemma matrix_of_ok gms Ab cus A : assembled ZR 1 gms gms Ab cus A -> forall a b, A a b = matrix_of gms Ab cus a b.
Proof.
  intros (Ms & H1 & H2) a b. rewrite H2. unfold matrix_of. apply (bsum_ext ZR). intros r Hr. apply in_seq in Hr. apply (bsum_ext ZR). intros e He. rewrite (H1 r e ltac:(lia) He). destruct (CGM_getitem 1 gms Silly r e); reflexivity.
Qed.
Lemma assembled_ex gms Ab (cus : cdict ZR) : forallb (fun e => match local_matrix ZR Ab cus 0 e with Some _ => true | None => false end) (elements (nth 0 gms []) 0) = true -> exists A, assembled ZR 1 gms gms Ab cus A.
Proof.
  intros H. rewrite forallb_forall in H. exists (matrix_of gms Ab cus). exists (fun r e => match local_matrix ZR Ab cus r e with Some M => M | None => Ab r e end). split.
  - intros r e Hr He. assert (r = 0) by lia. subst r. specialize (H e He). destruct (local_matrix ZR Ab cus 0 e); [reflexivity|discriminate].
  - intros a b. unfold matrix_of. apply (bsum_ext ZR). intros r Hr. apply in_seq in Hr. apply (bsum_ext ZR). intros e He. assert (r = 0) by lia. subst r. specialize (H e He). destruct (local_matrix ZR Ab cus 0 e); [destruct (CGM_getitem 1 gms Silly 0 e); reflexivity|discriminate].
Qed.
(** the row of dof n has an entry at another column *)
Definition left_over (N : nat) (g : GMat) (l : list (nat * list nat)) (n c : nat) : Prop :=
  exists Ac' bc', apply_strong_BC ZR 1 1 1 [g] [g] [g] 0 0 (fun _ => zeros l) None (fun _ => []) (fun _ => []) = Some (Ac', bc') /\
    (exists A', assembled ZR 1 [g] [g] (ones N) Ac' A') /\ forall A', assembled ZR 1 [g] [g] (ones N) Ac' A' -> A' n c <> 0%Z /\ n <> c.
Lemma left_over_check N g l n c : match apply_strong_BC ZR 1 1 1 [g] [g] [g] 0 0 (fun _ => zeros l) None (fun _ => []) (fun _ => []) with
    | Some (Ac', _) => forallb (fun e => match local_matrix ZR (ones N) Ac' 0 e with Some _ => true | None => false end) (elements g 0) && negb (matrix_of [g] (ones N) Ac' n c =? 0)%Z && negb (n =? c)
    | None => false end = true -> left_over N g l n c.
Proof.
  unfold left_over. destruct (apply_strong_BC _ _ _ _ _ _ _ _ _ _ _ _ _) as [(Ac' & bc')|]; [|discriminate]. intros H. apply andb_prop in H. destruct H as (H & H3). apply andb_prop in H. destruct H as (H1 & H2).
  exists Ac', bc'. split; [reflexivity|]. split; [apply assembled_ex; exact H1|]. intros A' HA. rewrite (matrix_of_ok _ _ _ _ HA). split.
  - intros E. rewrite E in H2. discriminate.
  - intros ->. rewrite Nat.eqb_refl in H3. discriminate.
Qed.
Lemma corner_case : exists m g l, L_map = Some m /\ naive F1 [1; 1; 1] [m] = Some g /\ on_one_core F1 [1; 1; 1] [3] L_map All = Some (g, l) /\
  prescribed 1 g (fun _ => l) 11 /\ ~ saturated 1 g (fun _ => l) /\ left_over 12 g l 11 0.
Proof.
  eexists. eexists. eexists. split; [vm_compute; reflexivity|]. split; [vm_compute; reflexivity|]. split; [vm_compute; reflexivity|].
  match goal with |- prescribed 1 ?g ?D 11 /\ _ => assert (P : prescribed 1 g D 11) end.
  { exists 0, 1. eexists. exists 10. split; [lia|]. split; [reflexivity|]. split; [reflexivity|]. cbn. tauto. }
  split; [exact P|]. split.
  - intros S. specialize (S 0 0 _ 11 11 ltac:(lia) eq_refl eq_refl P). cbn in S. repeat (destruct S as [S|S]; [discriminate S|]). exact S.
  - apply left_over_check. vm_compute. reflexivity.
Qed.
Lemma names_case : exists m g l, line_map = Some m /\ naive F0 [1; 1; 1] [m] = Some g /\ on_one_core F0 [1; 1; 1] [2; 3] line_map (Those [2]) = Some (g, l) /\
  prescribed 1 g (fun _ => l) 1 /\ ~ saturated 1 g (fun _ => l) /\ left_over 8 g l 1 8.
Proof.
  eexists. eexists. eexists. split; [vm_compute; reflexivity|]. split; [vm_compute; reflexivity|]. split; [vm_compute; reflexivity|].
  match goal with |- prescribed 1 ?g ?D 1 /\ _ => assert (P : prescribed 1 g D 1) end.
  { exists 0, 0. eexists. exists 1. split; [lia|]. split; [reflexivity|]. split; [reflexivity|]. cbn. tauto. }
  split; [exact P|]. split.
  - intros S. specialize (S 0 1 _ 0 1 ltac:(lia) eq_refl eq_refl P). cbn in S. repeat (destruct S as [S|S]; [discriminate S|]). exact S.
  - apply left_over_check. vm_compute. reflexivity.
Qed.

(** * the cache: boundaries set three times, the third list where the first was *)
Definition first_parts : list part := [(0, (0, false))].
Definition third_parts : list part := [(0, (0, true))].
Definition address_twice : list cevent := [SetBoundaries 0 7 first_parts; Interpret 0; SetBoundaries 0 8 []; SetBoundaries 0 7 third_parts].
Lemma cache_case : distinct_alive address_twice [] /\ latest address_twice 0 None = Some third_parts /\
  fst (interpret_local (fun _ => local_side F0 [1; 1; 1]) (crun (fun _ => local_side F0 [1; 1; 1]) address_twice) 0) <> parse_dofs (local_side F0 [1; 1; 1]) third_parts.
Proof. split; [cbn; intuition congruence|]. split; [reflexivity|]. vm_compute. discriminate. Qed.
(** a form deleted, the list of another form of another kind where its list was *)
Definition deleted_form : list cevent := [SetBoundaries 0 7 first_parts; Interpret 0; Delete 0; SetBoundaries 1 7 first_parts].
Definition two_forms (f : nat) : nat * bool -> option (list nat) := if f =? 0 then local_side F0 [1; 1; 1] else local_side F2 [1; 1; 1].
Lemma cache_case2 : distinct_alive deleted_form [] /\ latest deleted_form 1 None = Some first_parts /\
  fst (interpret_local two_forms (crun two_forms deleted_form) 1) <> parse_dofs (two_forms 1) first_parts.
Proof. split; [cbn; intuition congruence|]. split; [reflexivity|]. vm_compute. discriminate. Qed.

(** * the two sides meeting in an edge have nodes in common, and each its own trace dofs: nodes 0 and 4 get two partners *)
Definition nodes_gm : GMat := [[(0, seq 0 8)]].
Definition traces_gm : GMat := [[(0, seq 0 24)]].
Definition node_sides : list (nat * list nat) := [(0, [0; 2; 4; 6; 0; 1; 4; 5])].
Definition trace_sides : list (nat * list nat) := [(0, [0; 1; 2; 3; 8; 9; 10; 11])].
Lemma node_sides_ok : parse_dofs (local_side F0 [1; 1; 1]) [(0, (0, false)); (0, (1, false))] = Some node_sides.
Proof. reflexivity. Qed.
Definition block_matrix_of (rg cg : list GMat) (Ab : nat -> nat -> lmat ZR) (cus : cdict ZR) (a b : nat) : Z :=
  match CGM_getitem 1 rg Silly 0 0, CGM_getitem 1 cg Silly 0 0, local_matrix ZR Ab cus 0 0 with Some gi, Some gj, Some M => scat ZR gi gj (ent ZR M) a b | _, _, _ => 0%Z end.
Lemma partners_case : exists Ac' bc', apply_strong_BC ZR 1 1 2 [nodes_gm] [nodes_gm; traces_gm] [nodes_gm] 0 1 (fun _ => @mkI ZR node_sides None)
    (Some (fun _ => @mkI ZR trace_sides (Some [(0, [1; 2; 3; 4; 1; 5; 3; 6]%Z)]))) (fun _ => []) (fun _ => []) = Some (Ac', bc') /\
  (exists A', assembled ZR 1 [nodes_gm] [nodes_gm; traces_gm] (fun _ _ => mkL ZR 8 32 (fun _ _ => 0%Z)) Ac' A') /\
  forall A', assembled ZR 1 [nodes_gm] [nodes_gm; traces_gm] (fun _ _ => mkL ZR 8 32 (fun _ _ => 0%Z)) Ac' A' -> A' 0 8 = 1%Z /\ A' 0 16 = 1%Z.
Proof.
  eexists. eexists. split; [vm_compute; reflexivity|]. match goal with |- context [assembled ZR 1 ?rg ?cg ?Ab ?c] => set (cus := c : cdict ZR); set (B := Ab) end.
  assert (F : forall A', assembled ZR 1 [nodes_gm] [nodes_gm; traces_gm] B cus A' -> forall a b, A' a b = block_matrix_of [nodes_gm] [nodes_gm; traces_gm] B cus a b).
  { intros A' (Ms & H1 & H2) a b. rewrite H2. specialize (H1 0 0 ltac:(lia) ltac:(left; reflexivity)). unfold block_matrix_of. rewrite H1.
    change (elements (nth 0 [nodes_gm] []) ) with (elements nodes_gm). cbn [seq bsum fold_right map]. unfold bsum. cbn [fold_right elements gm_local nodes_gm nth map fst].
    destruct (CGM_getitem 1 [nodes_gm] Silly 0 0), (CGM_getitem 1 [nodes_gm; traces_gm] Silly 0 0); cbn; ring. }
  split.
  - assert (S : exists M, local_matrix ZR B cus 0 0 = Some M) by (eexists; vm_compute; reflexivity). destruct S as (M & EM).
    exists (fun a b => bsum (K := ZR) (seq 0 1) (fun r => bsum (K := ZR) (elements (nth 0 [nodes_gm] []) r) (fun e => match CGM_getitem 1 [nodes_gm] Silly r e, CGM_getitem 1 [nodes_gm; traces_gm] Silly r e with Some gi, Some gj => scat ZR gi gj (ent ZR M) a b | _, _ => 0%Z end))).
    exists (fun _ _ => M). split; [|intros; reflexivity]. intros r e Hr He. assert (r = 0) by lia. subst r. destruct He as [<-|[]]. exact EM.
  - intros A' HA. rewrite !(F A' HA). split; vm_compute; reflexivity.
Qed.
