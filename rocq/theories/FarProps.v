(* C148, C149: arithmetic of forms. *)
From Coq Require Import String.
From Coq Require Import Reals List Lra Lia Arith Bool.
From Verif Require Import TfiModel TfiSpec CtModel CtSpec RingSum SpaceSpec DiscModel DiscSpec ReconModel ReconSpec TriModel Rec2Model Rec2Spec ErrModel ErrSpec.
From Verif Require Import FarModel FarSpec FarProofs FarProofs2 FarProofs3 FarProofs4 FarExample.
From Verif Require Rec2Example ErrExample TreconExample ReconExample TriExample Disc2Example.
Import ListNotations.
Open Scope R_scope.

(* a + b (op is +) and a - b (op is -) of 2D and 3D forms of one class, mesh and
   space: the entrywise sum on every element, with the options of a *)
Theorem C148_combine : forall els nbasis op sg a b, alike a b -> full els nbasis a -> full els nbasis b -> (exists l, f_local a = Some l) -> (exists l, f_local b = Some l) ->
  exists f, combine_forms els nbasis op sg a b = Some f /\ alike a f /\ options_of f = options_of a /\ o_name (f_opts f) = (o_name (f_opts a) ++ sg ++ o_name (f_opts b))%string /\
    full els nbasis f /\ (exists l, f_local f = Some l) /\ forall e x y, In e (els (f_mesh a)) -> has a e x -> has b e y -> exists c, has f e c /\ entrywise op x y c.
Proof. exact combine_forms_ok. Qed.
Print Assumptions C148_combine.
Example C148_combine_ex : sub_3d fels fnb fa fb = Some (mkForm 1 0 0 (mkOpts true (Some Outer) 0 "a-b") (Some [(3%nat, [3 - 10; 4 - 20]); (5%nat, [1 - 30; 2 - 40])])) /\
  exists f, combine_forms fels fnb Rminus "-" fa fb = Some f /\ alike fa f.
Proof. split; [reflexivity|]. destruct (combine_forms_ok fels fnb Rminus "-" fa fb fa_fb fa_full fb_full fa_local fb_local) as (f & F & K & _). eauto. Qed.
Theorem C148_triangles : forall els nbasis op a b, alike a b -> full els nbasis a -> full els nbasis b -> (exists l, f_local a = Some l) -> (exists l, f_local b = Some l) ->
  exists f, combine_tri els nbasis op a b = Some f /\ alike a f /\ full els nbasis f /\ (exists l, f_local f = Some l) /\
    forall e x y, In e (els (f_mesh a)) -> has a e x -> has b e y -> exists c, has f e c /\ entrywise op x y c.
Proof. exact combine_tri_ok. Qed.
Print Assumptions C148_triangles.
Example C148_triangles_ex : exists f, add_tri fels fnb fa fb = Some f /\ has f 5 [1 + 30; 2 + 40].
Proof. eexists. split; [reflexivity|]. eexists. split; [reflexivity|]. eexists. reflexivity. Qed.
(* multiples *)
Theorem C148_multiple : forall els nbasis t r a, full els nbasis a -> (exists l, f_local a = Some l) ->
  exists f g, rmul_3d els nbasis (Number t r) a = Some f /\ rmul_2d els nbasis (Number t r) a = Some g /\ f_local f = f_local g /\
    alike a f /\ alike a g /\ options_of f = options_of a /\ options_of g = options_of a /\ full els nbasis f /\ full els nbasis g /\
    (exists l, f_local f = Some l) /\
    forall e x, In e (els (f_mesh a)) -> has a e x -> exists c, has f e c /\ multiple r x c.
Proof. exact rmul_ok. Qed.
Print Assumptions C148_multiple.
Example C148_multiple_ex : rmul_2d fels fnb (Number "7" 7) fa = Some (mkForm 1 0 0 (mkOpts true (Some Outer) 0 "7*a") (Some [(3%nat, [7 * 3; 7 * 4]); (5%nat, [7 * 1; 7 * 2])])).
Proof. reflexivity. Qed.
(* the sums and differences by their names, with the options and names of the results; triangular ones keep the orientation, not the hybridity *)
Theorem C148_named : forall els nbasis a b, alike a b -> full els nbasis a -> full els nbasis b -> (exists l, f_local a = Some l) -> (exists l, f_local b = Some l) ->
  (exists f, add_cscg els nbasis a b = Some f /\ result_of els nbasis Rplus a b f /\ options_of f = options_of a /\ o_name (f_opts f) = (o_name (f_opts a) ++ "+" ++ o_name (f_opts b))%string) /\
  (exists f, sub_3d els nbasis a b = Some f /\ result_of els nbasis Rminus a b f /\ options_of f = options_of a /\ o_name (f_opts f) = (o_name (f_opts a) ++ "-" ++ o_name (f_opts b))%string) /\
  (exists f, add_tri els nbasis a b = Some f /\ result_of els nbasis Rplus a b f /\ options_of f = (false, o_orient (f_opts a), o_numbering (f_opts a)) /\ o_name (f_opts f) = ("shadow-of-" ++ o_name (f_opts a))%string) /\
  (exists f, sub_tri els nbasis a b = Some f /\ result_of els nbasis Rminus a b f /\ options_of f = (false, o_orient (f_opts a), o_numbering (f_opts a)) /\ o_name (f_opts f) = ("shadow-of-" ++ o_name (f_opts a))%string).
Proof. exact named_ok. Qed.
Print Assumptions C148_named.
Example C148_named_ex : alike fa fb /\ full fels fnb fa /\ full fels fnb fb /\ exists f, sub_tri fels fnb fa fb = Some f /\ options_of f = (false, Some Outer, 0%nat).
Proof. split; [exact fa_fb|]. split; [exact fa_full|]. split; [exact fb_full|]. eexists. split; reflexivity. Qed.
Theorem C148_product_names : forall els nbasis t r a f,
  (rmul_3d els nbasis (Number t r) a = Some f -> o_name (f_opts f) = (t ++ o_name (f_opts a))%string) /\
  (rmul_2d els nbasis (Number t r) a = Some f -> o_name (f_opts f) = (t ++ "*" ++ o_name (f_opts a))%string).
Proof. exact product_names. Qed.
Print Assumptions C148_product_names.
Example C148_product_names_ex : exists f, rmul_3d fels fnb (Number "7" 7) fa = Some f /\ o_name (f_opts f) = "7a"%string.
Proof. eexists. split; reflexivity. Qed.
(* other classes, meshes or spaces, no cochain, or no cochain on an element: refused *)
Theorem C148_refused : forall els nbasis op sg a b, (~ alike a b \/ f_local a = None \/ f_local b = None) ->
  combine_forms els nbasis op sg a b = None /\ (els (f_mesh a) <> [] -> combine_tri els nbasis op a b = None).
Proof. exact combine_none. Qed.
Print Assumptions C148_refused.
Example C148_refused_ex : add_cscg fels fnb fa fn = None /\ add_cscg fels fnb fa (mkForm 2 0 0 ob (f_local fb)) = None.
Proof. split; apply combine_none; [right; right; reflexivity|left; intros (K & _); discriminate]. Qed.
Theorem C148_missing : forall els nbasis op sg a b e, alike a b -> In e (els (f_mesh a)) -> (forall c, ~ has a e c) \/ (forall c, ~ has b e c) ->
  combine_forms els nbasis op sg a b = None /\ combine_tri els nbasis op a b = None.
Proof. exact missing_element. Qed.
Print Assumptions C148_missing.
Example C148_missing_ex : add_cscg fels fnb fa fc = None.
Proof. apply (missing_element fels fnb Rplus "+" fa fc 5); [repeat split|right; left; reflexivity|right; exact fc_misses]. Qed.
(* rules: commutative and associative sums, differences undone by sums, multiples
   of sums; in 2D, where there is no difference, a + (-1) * b *)
Theorem C148_commutative : forall els nbasis a b, alike a b -> full els nbasis a /\ (exists l, f_local a = Some l) -> full els nbasis b /\ (exists l, f_local b = Some l) ->
  exists f g, add_cscg els nbasis a b = Some f /\ add_cscg els nbasis b a = Some g /\ same_cochains els f g.
Proof. exact add_comm. Qed.
Print Assumptions C148_commutative.
Example C148_commutative_ex : exists f g, add_cscg fels fnb fa fb = Some f /\ add_cscg fels fnb fb fa = Some g /\ same_cochains fels f g.
Proof. exact (add_comm fels fnb fa fb fa_fb (conj fa_full fa_local) (conj fb_full fb_local)). Qed.
Theorem C148_associative : forall els nbasis a b d, alike a b -> alike b d -> full els nbasis a /\ (exists l, f_local a = Some l) -> full els nbasis b /\ (exists l, f_local b = Some l) ->
  full els nbasis d /\ (exists l, f_local d = Some l) ->
  exists ab bd f g, add_cscg els nbasis a b = Some ab /\ add_cscg els nbasis ab d = Some f /\ add_cscg els nbasis b d = Some bd /\ add_cscg els nbasis a bd = Some g /\ same_cochains els f g.
Proof. exact add_assoc. Qed.
Print Assumptions C148_associative.
Example C148_associative_ex : exists ab ba f g, add_cscg fels fnb fa fb = Some ab /\ add_cscg fels fnb ab fa = Some f /\ add_cscg fels fnb fb fa = Some ba /\ add_cscg fels fnb fa ba = Some g /\ same_cochains fels f g.
Proof. exact (add_assoc fels fnb fa fb fa fa_fb (alike_sym _ _ fa_fb) (conj fa_full fa_local) (conj fb_full fb_local) (conj fa_full fa_local)). Qed.
Theorem C148_difference : forall els nbasis a b, alike a b -> full els nbasis a /\ (exists l, f_local a = Some l) -> full els nbasis b /\ (exists l, f_local b = Some l) ->
  exists d f, sub_3d els nbasis a b = Some d /\ add_cscg els nbasis d b = Some f /\ same_cochains els f a.
Proof. exact sub_add. Qed.
Print Assumptions C148_difference.
Example C148_difference_ex : exists d f, sub_3d fels fnb fa fb = Some d /\ add_cscg fels fnb d fb = Some f /\ same_cochains fels f fa.
Proof. exact (sub_add fels fnb fa fb fa_fb (conj fa_full fa_local) (conj fb_full fb_local)). Qed.
Theorem C148_difference_2d : forall els nbasis a b, alike a b -> full els nbasis a /\ (exists l, f_local a = Some l) -> full els nbasis b /\ (exists l, f_local b = Some l) ->
  exists n f, rmul_2d els nbasis (Number "-1" (-1)) b = Some n /\ add_cscg els nbasis a n = Some f /\
    forall e x y, In e (els (f_mesh a)) -> has a e x -> has b e y -> exists c, has f e c /\ entrywise Rminus x y c.
Proof. exact minus_2d. Qed.
Print Assumptions C148_difference_2d.
Example C148_difference_2d_ex : sub_2d fa fb = None /\ exists n f, rmul_2d fels fnb (Number "-1" (-1)) fb = Some n /\ add_cscg fels fnb fa n = Some f.
Proof. split; [reflexivity|]. destruct (minus_2d fels fnb fa fb fa_fb (conj fa_full fa_local) (conj fb_full fb_local)) as (n & f & N & F & _). eauto. Qed.
Theorem C148_distributive : forall els nbasis t r a b, alike a b -> full els nbasis a /\ (exists l, f_local a = Some l) -> full els nbasis b /\ (exists l, f_local b = Some l) ->
  exists s f ra rb g, add_cscg els nbasis a b = Some s /\ rmul_3d els nbasis (Number t r) s = Some f /\
  rmul_3d els nbasis (Number t r) a = Some ra /\ rmul_3d els nbasis (Number t r) b = Some rb /\ add_cscg els nbasis ra rb = Some g /\ same_cochains els f g.
Proof. exact mul_add. Qed.
Print Assumptions C148_distributive.
Example C148_distributive_ex : exists s f ra rb g, add_cscg fels fnb fa fb = Some s /\ rmul_3d fels fnb (Number "3" 3) s = Some f /\
  rmul_3d fels fnb (Number "3" 3) fa = Some ra /\ rmul_3d fels fnb (Number "3" 3) fb = Some rb /\ add_cscg fels fnb ra rb = Some g /\ same_cochains fels f g.
Proof. exact (mul_add fels fnb "3" 3 fa fb fa_fb (conj fa_full fa_local) (conj fb_full fb_local)). Qed.
(* the options are not compared: the sum of an outer and an inner 3D form is made
   and depends on the order; sums of hybrid triangular forms are not hybrid *)
Theorem C148_order_refuted : ~ (forall els nbasis a b f g, add_cscg els nbasis a b = Some f -> add_cscg els nbasis b a = Some g -> options_of f = options_of g).
Proof. exact order_refuted. Qed.
Print Assumptions C148_order_refuted.
Example C148_order_ex : options_of fa <> options_of fb.
Proof. discriminate. Qed.
Theorem C148_orientation_refuted : ~ (forall els nbasis a b f, add_cscg els nbasis a b = Some f -> o_orient (f_opts a) = o_orient (f_opts b)).
Proof. exact orientation_refuted. Qed.
Print Assumptions C148_orientation_refuted.
Example C148_orientation_ex : add_cscg fels fnb fa fb <> None.
Proof. discriminate. Qed.
Theorem C148_hybrid_refuted : ~ (forall els nbasis a b f, o_hybrid (f_opts a) = o_hybrid (f_opts b) -> add_tri els nbasis a b = Some f -> o_hybrid (f_opts f) = o_hybrid (f_opts a)).
Proof. exact hybrid_refuted. Qed.
Print Assumptions C148_hybrid_refuted.
Example C148_hybrid_ex : exists f, add_tri fels fnb fa fa = Some f /\ o_hybrid (f_opts f) = false /\ o_hybrid (f_opts fa) = true.
Proof. eexists. repeat split. Qed.

(* the field of a linear combination of cochains is that of the fields, for 2D,
   triangular and 3D forms of all degrees *)
Theorem C149_linear : forall op p q, (forall x y, op x y = p * x + q * y) ->
  (forall k s c d e J x y v w u, entrywise op c d e -> entrywise op v w u -> fields2 k s c J x y v -> fields2 k s d J x y w -> fields2 k s e J x y u) /\
  (forall k P M n c d e J x y v w u, entrywise op c d e -> entrywise op v w u -> fieldst k P M n c J x y v -> fieldst k P M n d J x y w -> fieldst k P M n e J x y u) /\
  (forall k s c d e J x y z v w u, entrywise op c d e -> entrywise op v w u -> fields3 k s c J x y z v -> fields3 k s d J x y z w -> fields3 k s e J x y z u).
Proof. exact fields_linear. Qed.
Print Assumptions C149_linear.
(* the 2-form 1 added to itself *)
Example C149_linear_ex : fields2 K2 Rec2Example.rs [1 + 1; 1 + 1; 3 + 3; 3 + 3] Disc2Example.exJ2 (1 / 2) (1 / 3) [1 + 1].
Proof.
  destruct (fields_linear Rplus 1 1 ltac:(intros; ring)) as (A & _). apply (A _ _ Rec2Example.rc2 Rec2Example.rc2 _ _ _ _ [1] [1]);
    [apply (map2_entrywise Rplus Rec2Example.rc2 Rec2Example.rc2); reflexivity|apply (map2_entrywise Rplus [1] [1]); reflexivity| |]; apply Rec2Example.hat_one.
Qed.
Theorem C149_multiple : forall r,
  (forall k s c d J x y v w, multiple r c d -> multiple r v w -> fields2 k s c J x y v -> fields2 k s d J x y w) /\
  (forall k P M n c d J x y v w, multiple r c d -> multiple r v w -> fieldst k P M n c J x y v -> fieldst k P M n d J x y w) /\
  (forall k s c d J x y z v w, multiple r c d -> multiple r v w -> fields3 k s c J x y z v -> fields3 k s d J x y z w).
Proof. exact fields_multiple. Qed.
Print Assumptions C149_multiple.
Example C149_multiple_ex : fields3 V2 ReconExample.sp (map (Rmult 5) ReconExample.exc2) DiscExample.exJ (1 / 2) 0 0 [5 * 0; 5 * -2; 5 * 0].
Proof.
  destruct (fields_multiple 5) as (_ & _ & C). apply (C _ _ ReconExample.exc2 _ _ _ _ _ [0; -2; 0]); [apply map_multiple|apply (map_multiple 5 [0; -2; 0])|]. apply ErrExample.ex_field3.
Qed.
