(* The outputs: 2-M-1, 2-M-0, the curl vector, the curl of a cross product. *)
From Coq Require Import Reals List ZArith Lia Lra Bool.
From Verif Require Import TfiModel TfiSpec TfiProofs CtModel CtSpec CtProofs RingSum SpaceModel SpaceSpec SpaceProofs.
From Verif Require Import DiscModel DiscSpec DiscProofs DiscProofs2 DiscProofs3 ReconModel ReconSpec ReconProofs ReconProofs2 ReconProofs3 ReconProofs4.
From Verif Require Import CrossModel CrossSpec CrossProofs.
Import ListNotations.
Open Scope R_scope.

(* ---------- 2-M-1 and 2-M-0 ---------- *)
Theorem out_2M1_ok M ni nj nk a b c : has_shape3 M ni nj nk -> length a = ni -> length b = nj -> length c = nk ->
  bilinear (out_2M1 M a nj nk) c b = tri M a b c /\ has_shape (out_2M1 M a nj nk) nk nj.
Proof.
  intros H La Lb Lc. split.
  - rewrite <- (tab3_get ni nj nk M H). apply out_2M1_tab; assumption.
  - split; [apply len_map_seq|]. intros row I. apply in_map_iff in I as (k & <- & _). apply len_map_seq.
Qed.
Theorem out_2M0_ok M ni nj nk a b c : has_shape3 M ni nj nk -> length a = ni -> length b = nj -> length c = nk ->
  bilinear (out_2M0 M b nk) c a = tri M a b c /\ has_shape (out_2M0 M b nk) nk ni.
Proof.
  intros H La Lb Lc. split.
  - rewrite <- (tab3_get ni nj nk M H). apply out_2M0_tab; assumption.
  - split; [apply len_map_seq|]. intros row I. apply in_map_iff in I as (k & <- & _). rewrite map_length. apply H.
Qed.
(* what the output '2-M-0' of cross_product_1__ip_1.py is *)
Theorem out_2M0_11_is M ni nj nk a b c : has_shape3 M ni nj nk -> length a = ni -> length b = ni -> length c = nk ->
  exists T, out_2M0_11 M b nk = Some T /\ bilinear T c a = tri M (map2 Rmult b a) (repeat 1 nj) c.
Proof.
  intros H La Lb Lc. unfold out_2M0_11. rewrite (proj1 H), Lb, Nat.eqb_refl. eexists. split; [reflexivity|].
  rewrite <- (tab3_get ni nj nk M H). set (f := get3 M).
  assert (La' : length (map2 Rmult b a) = ni).
  { clear - La Lb. revert a b La Lb. induction ni as [|n IH]; intros [|x a] [|y b] La Lb; try discriminate; [reflexivity|]. cbn [map2 length]. rewrite IH; [reflexivity| |]; cbn in La, Lb; lia. }
  rewrite tri_tab; [|exact La'|apply repeat_length|exact Lc]. unfold bilinear. rewrite times_seq. rewrite La. fold (dotl c (map (fun k => sq ni (fun j =>
    nth j (map2 (fun Mi x => lsum (map (fun Mij => nth k Mij 0) Mi) * x) (tab3 ni nj nk f) b) 0 * nth j a 0)) (seq 0 nk))).
  rewrite (dotl_seq c nk _ Lc).
  etransitivity; [|apply sq_ext; intros i _; apply sq_swap]. rewrite (sq_swap ni nk). apply sq_ext. intros k Hk. rewrite sq_mult_l. apply sq_ext. intros i Hi.
  assert (N1 : forall (A : Type) (g : A -> R -> R) l (d : A) x, length l = ni -> length x = ni -> nth i (map2 g l x) 0 = g (nth i l d) (nth i x 0)).
  { intros A g l d x Ll Lx. clear - Ll Lx Hi. revert l x ni i Ll Lx Hi. induction l as [|e l IH]; intros [|y x] [|n] i Ll Lx Hi; try discriminate; [lia|].
    destruct i; [reflexivity|]. cbn [map2 nth]. apply (IH x n); cbn in Ll, Lx; lia. }
  rewrite (N1 _ _ _ []); [|unfold tab3; apply len_map_seq|exact Lb]. rewrite (N1 _ Rmult b 0 a Lb La).
  unfold tab3. rewrite nth_map_seq by exact Hi. rewrite map_map, lsum_map. fold (sq nj (fun x => nth k (map (f i x) (seq 0 nk)) 0)).
  rewrite !sq_mult_r, sq_mult_l. apply sq_ext. intros j Hj. rewrite nth_map_seq by exact Hk.
  replace (nth j (repeat 1 nj) 0) with 1; [ring|]. symmetry. rewrite (nth_indep _ 0 1) by (rewrite repeat_length; exact Hj). apply nth_repeat.
Qed.

(* ---------- curl ---------- *)
Lemma nmul_R n (x : R) : @nmul RRing n x = INR n * x.
Proof. induction n as [|n IH]; [cbn; ring|]. rewrite S_INR. cbn [nmul]. rewrite IH. cbn. ring. Qed.
Lemma zmul_R z (x : R) : @zmul RRing z x = IZR z * x.
Proof.
  destruct z as [|p|p]; cbn [zmul]; [cbn; ring| |].
  - rewrite nmul_R, INR_IZR_INZ, positive_nat_Z. reflexivity.
  - rewrite nmul_R, INR_IZR_INZ, positive_nat_Z. change (IZR (Z.neg p)) with (- IZR (Z.pos p)). cbn. ring.
Qed.
Lemma bsum_rsum {A} (l : list A) f : @bsum RRing A l f = rsum l f.
Proof. induction l as [|a l IH]; [reflexivity|]. rewrite rsum_cons, <- IH. reflexivity. Qed.
Lemma mat_vec_ok E c n : length (mat_vec E c n) = n /\ mat_times E c (mat_vec E c n).
Proof.
  assert (L : length (mat_vec E c n) = n) by apply len_map_seq. split; [exact L|]. intros r Hr. rewrite L in Hr. unfold mat_vec. rewrite nth_map_seq by exact Hr.
  rewrite lsum_map. unfold apply_mat. etransitivity; [|symmetry; apply bsum_rsum]. apply rsum_ext. intros i _. symmetry. apply zmul_R.
Qed.
Lemma curl_vec_tri M E ni nj nk cu ce : has_shape3 M ni nj nk -> length cu = nj -> length ce = nk ->
  dotl ce (curl_vec M E cu nk) = tri M (mat_vec E cu ni) cu ce.
Proof.
  intros H Lu Le. unfold curl_vec. rewrite (proj1 H). rewrite <- (tab3_get ni nj nk M H). set (f := get3 M).
  rewrite (dotl_seq ce nk _ Le). rewrite tri_tab; [|apply mat_vec_ok|exact Lu|exact Le].
  etransitivity; [|apply sq_ext; intros i _; apply sq_swap]. rewrite (sq_swap ni nk). apply sq_ext. intros k Hk.
  rewrite lsum_map2. rewrite (combine_sq []) by (unfold tab3; rewrite len_map_seq, (proj1 (mat_vec_ok E cu ni)); lia). rewrite (proj1 (mat_vec_ok E cu ni)), sq_mult_l.
  apply sq_ext. intros i Hi. cbn [fst snd]. unfold tab3. rewrite nth_map_seq by exact Hi. rewrite lsum_map2. rewrite (combine_sq []) by (rewrite len_map_seq; lia).
  rewrite Lu, sq_mult_l. apply sq_ext. intros j Hj. cbn [fst snd]. rewrite nth_map_seq by exact Hj. rewrite nth_map_seq by exact Hk. ring.
Qed.
Lemma cp3_shape kw ku ke sw su se q J orth dJ :
  has_shape3 (cp3 kw ku ke sw su se q J orth dJ) (nbasis kw sw) (nbasis ku su) (nbasis ke se).
Proof. destruct (cp3_tab kw ku ke sw su se q J orth dJ) as (f & ->). apply shape_tab3. Qed.
Lemma on_inside m P : inside_grid m -> inside_element P -> on_grid m P.
Proof. intros G H x y z X Y Z. destruct (G x y z X Y Z) as (A & B & C). apply H; assumption. Qed.
Section Curl.
Variables (g : Grid) (s : Space3).
Hypothesis B : basis3_of g s.
Variables (F : coord -> R -> R -> R -> R) (J : R -> R -> R -> mat3) (H : coord -> coord -> coord -> R -> R -> R -> R).
Hypotheses (HJ : jacobian_of F J) (HH : second_derivs J H).
Variables (v : coord -> R -> R -> R -> R) (D : coord -> coord -> R -> R -> R -> R) (E : nat -> nat -> Z) (c : list R).
Hypotheses (HE : E21 (degrees s) = Some E) (Lc : length c = length (cells (degrees s) edges3)) (Dv : deriv_inside F v D).
Hypothesis Fv : inside_element (fun x y z => pulls1 (J x y z) (through (value v) F x y z) (fun d => hat1 s c d x y z)).
Lemma curl_form q : inside_grid (qmesh q) -> form_at k2 s (qmesh q) J (mat_vec E c (nbasis k2 s)) (through (value (curl_field D)) F).
Proof.
  intros G. destruct (mat_vec_ok E c (nbasis k2 s)) as (L & M). split; [rewrite L; apply nbasis_ok|]. apply on_inside; [exact G|].
  apply (recon_curl g s B F J H HJ HH v D E c _ HE Lc); [rewrite L; apply (nbasis_ok k2)|exact M|exact Dv|exact Fv].
Qed.
Theorem curl_cross_ok se q orth ce ve : rules_ok q -> inside_grid (qmesh q) -> nonzero_det q J -> orth_ok q J orth -> form_at k2 se (qmesh q) J ce ve ->
  dotl ce (curl_vec (curl_cross s se q J orth) E c (nbasis k2 se)) = triple q J (through (value (curl_field D)) F) (through (value v) F) ve.
Proof.
  intros Rq G N O Fe. rewrite (curl_vec_tri _ E (nbasis k2 s) (nbasis k1 s) (nbasis k2 se));
    [|apply cp3_shape|rewrite nbasis_ok; exact Lc|rewrite nbasis_ok; apply Fe].
  apply tri_F; try assumption; [apply curl_form; exact G|]. split; [exact Lc|]. apply on_inside; assumption.
Qed.
(* ---------- curl of a cross product ---------- *)
Lemma dotl_sq a b : dotl a b = sq (length b) (fun i => nth i a 0 * nth i b 0).
Proof. apply dot_sq. Qed.
Lemma nth_times M c' i : (i < length M)%nat -> nth i (times M c') 0 = sq (length c') (fun j => nth j (nth i M []) 0 * nth j c' 0).
Proof. intros Hi. unfold times. rewrite (nth_indep _ 0 (rsum (combine [] c') (fun ab => fst ab * snd ab))) by (rewrite map_length; exact Hi). rewrite (map_nth (fun row => rsum (combine row c') (fun ab => fst ab * snd ab))). apply dot_sq. Qed.
(* the vector of entries sum over m, n of M[m][n][l] a[m] b[n] *)
Definition contract (M : arr3) (a b : list R) (n : nat) : list R :=
  map (fun l => sq (length a) (fun i => sq (length b) (fun j => get3 M i j l * nth i a 0 * nth j b 0))) (seq 0 n).
Lemma contract_ok M ni nj nk a b c' : has_shape3 M ni nj nk -> length a = ni -> length b = nj -> length c' = nk ->
  dotl c' (contract M a b nk) = tri M a b c'.
Proof.
  intros HM La Lb Lc'. rewrite <- (tab3_get ni nj nk M HM) at 2. rewrite tri_tab by assumption. unfold contract. rewrite (dotl_seq c' nk _ Lc'), La, Lb.
  etransitivity; [|apply sq_ext; intros i _; apply sq_swap]. rewrite (sq_swap ni nk). apply sq_ext. intros k Hk. rewrite sq_mult_l. apply sq_ext. intros i Hi.
  rewrite sq_mult_l. apply sq_ext. intros j Hj. ring.
Qed.
Lemma inner_curl_tri su sB sb q q' invM a b e : length invM = nbasis k1 s -> length a = nbasis k2 su -> length b = nbasis k2 sB -> length e = nbasis k2 sb ->
  tri (inner_curl su sB sb s q q' J invM E) a b e =
  bilinear (inner2 false true sb s q' J) e (mat_vec E (times invM (contract (cross_product k2 k2 k1 su sB s q J true) a b (nbasis k1 s))) (nbasis k2 s)).
Proof.
  intros Li La Lb Le. unfold inner_curl. rewrite tri_tab by assumption.
  set (cpm := cross_product k2 k2 k1 su sB s q J true). set (Mi := inner2 false true sb s q' J). set (n1 := nbasis k1 s). set (n2 := nbasis k2 s).
  assert (Lm : length Mi = nbasis k2 sb).
  { unfold Mi. rewrite inner2_kmat by discriminate. unfold inner2_k. rewrite (proj1 (shape_kmat _ _ _)). rewrite nbasis_ok. reflexivity. }
  set (w := times invM (contract cpm a b n1)). assert (Lw : length w = n1) by (unfold w, times; rewrite map_length; exact Li).
  unfold bilinear. fold (dotl e (times Mi (mat_vec E w n2))). rewrite dotl_sq. unfold times at 1. rewrite map_length, Lm.
  etransitivity; [|symmetry; apply sq_ext; intros k Hk; rewrite nth_times by (rewrite Lm; exact Hk); reflexivity].
  rewrite (proj1 (mat_vec_ok E w n2)).
  etransitivity; [apply sq_ext; intros m _; apply sq_swap|]. rewrite (sq_swap (nbasis k2 su)). apply sq_ext. intros k Hk.
  transitivity (sq (nbasis k2 su) (fun m => sq (nbasis k2 sB) (fun n => sq n2 (fun j => nth k e 0 * (nth j (nth k Mi []) 0 * (sq n1 (fun i => IZR (E j i) * sq n1 (fun l => nth l (nth i invM []) 0 * get3 cpm m n l)) * nth m a 0 * nth n b 0)))))).
  { apply sq_ext. intros m Hm. apply sq_ext. intros n Hn. rewrite lsum_map. rewrite !rsum_scal. fold n2. apply sq_ext. intros j Hj. rewrite get_tab3 by assumption. rewrite lsum_map.
    fold (sq n1 (fun i => IZR (E j i) * get3 (tab3 n1 (nbasis k2 su) (nbasis k2 sB) (fun i m n => lsum (map (fun j => nth j (nth i invM []) 0 * get3 cpm m n j) (seq 0 n1)))) i m n)).
    match goal with |- _ * sq n1 ?f1 * _ * _ * _ = _ * (_ * (sq n1 ?f2 * _ * _)) => replace (sq n1 f1) with (sq n1 f2); [ring|] end.
    apply sq_ext. intros i Hi. rewrite get_tab3 by assumption. rewrite lsum_map. reflexivity. }
  transitivity (sq n2 (fun j => nth k e 0 * (nth j (nth k Mi []) 0 * nth j (mat_vec E w n2) 0))); [|rewrite sq_mult_l; reflexivity].
  etransitivity; [apply sq_ext; intros m _; apply sq_swap|]. rewrite sq_swap. apply sq_ext. intros j Hj.
  transitivity (sq (nbasis k2 su) (fun m => nth k e 0 * (nth j (nth k Mi []) 0 * sq (nbasis k2 sB) (fun n =>
    sq n1 (fun i => IZR (E j i) * sq n1 (fun l => nth l (nth i invM []) 0 * get3 cpm m n l)) * nth m a 0 * nth n b 0)))).
  { apply sq_ext. intros m _. rewrite !sq_mult_l. reflexivity. }
  rewrite <- sq_mult_l. f_equal. rewrite <- sq_mult_l. f_equal.
  unfold mat_vec. rewrite nth_map_seq by exact Hj. rewrite lsum_map, Lw. fold (sq n1 (fun i => IZR (E j i) * nth i w 0)).
  etransitivity; [apply sq_ext; intros m _; apply sq_ext; intros n _; rewrite Rmult_assoc, sq_mult_r; reflexivity|].
  etransitivity; [apply sq_ext; intros m _; apply sq_swap|]. rewrite sq_swap. apply sq_ext. intros i Hi.
  unfold w. rewrite nth_times by (rewrite Li; exact Hi). unfold contract at 1. rewrite len_map_seq. rewrite sq_mult_l.
  etransitivity; [apply sq_ext; intros m _; apply sq_ext; intros n _; rewrite sq_mult_l, sq_mult_r; reflexivity|].
  etransitivity; [apply sq_ext; intros m _; apply sq_swap|]. rewrite sq_swap. apply sq_ext. intros l Hl.
  unfold contract. rewrite nth_map_seq by exact Hl. rewrite La, Lb, !sq_mult_l. apply sq_ext. intros m _. rewrite !sq_mult_l. apply sq_ext. intros n _. ring.
Qed.
Lemma dotl_unit n x l : (l < n)%nat -> length x = n -> dotl (map (fun i => if Nat.eqb i l then 1 else 0) (seq 0 n)) x = nth l x 0.
Proof.
  intros Hl Lx. rewrite dotl_sq, Lx. unfold sq. rewrite (rsum_one n l _ Hl).
  - rewrite nth_map_seq by exact Hl. rewrite Nat.eqb_refl. ring.
  - intros j Hj Hn. rewrite nth_map_seq by exact Hj. rewrite (proj2 (Nat.eqb_neq j l) Hn). ring.
Qed.
Lemma dotl_all x y n : length x = n -> length y = n -> (forall e, length e = n -> dotl e x = dotl e y) -> x = y.
Proof.
  intros Lx Ly He. apply (nth_ext x y 0 0); [lia|]. intros l Hl. rewrite Lx in Hl. rewrite <- (dotl_unit n x l Hl Lx), <- (dotl_unit n y l Hl Ly).
  apply He. apply len_map_seq.
Qed.
Lemma some_field m e : length e = length (cells (degrees s) edges3) -> on_grid m (fun x y z => det3 (J x y z) <> 0) ->
  form_at k1 s m J e (fun x y z => value1 false (ct_inverse_Jacobian_matrix (J x y z)) (hats (hat1 s e) (x, y, z))).
Proof.
  intros L N. split; [exact L|]. intros x y z X Y Z d. rewrite (value1_pulls false (J x y z) (hats (hat1 s e) (x, y, z)) (N x y z X Y Z)); [|discriminate].
  apply get_hats.
Qed.
Lemma form1 q : inside_grid (qmesh q) -> form_at k1 s (qmesh q) J c (through (value v) F).
Proof. intros G. split; [exact Lc|]. apply on_inside; assumption. Qed.
Theorem inner_curl_ok su sB sb q q' q1 invM a b e vu vB ve :
  rules_ok q -> rules_ok q' -> inside_grid (qmesh q) -> inside_grid (qmesh q') ->
  nonzero_det q J -> nonzero_det q' J -> orth_ok q J true -> orth_ok q' J true -> constant_det q J ->
  form_at k2 su (qmesh q) J a vu -> form_at k2 sB (qmesh q) J b vB -> form_at k2 sb (qmesh q') J e ve ->
  on_grid (qmesh q) (fun x y z => through (value v) F x y z = cross (vu x y z) (vB x y z)) ->
  inverse_of (inner1 true true s s q1 J) invM (nbasis k1 s) ->
  (forall e', length e' = nbasis k1 s -> bilinear (inner1 true true s s q1 J) e' c = bilinear (inner1 true true s s q J) e' c) ->
  tri (inner_curl su sB sb s q q' J invM E) a b e = quad3 q' (fun x y z => det3 (J x y z) * dot (through (value (curl_field D)) F x y z) (ve x y z)).
Proof.
  intros Rq Rq' G G' N N' O O' C Fu FB Fe Hx (S1 & S2 & _ & Inv) Same.
  assert (Lc' : length c = nbasis k1 s) by (rewrite nbasis_ok; exact Lc).
  rewrite inner_curl_tri; [|apply S2|rewrite nbasis_ok; apply Fu|rewrite nbasis_ok; apply FB|rewrite nbasis_ok; apply Fe].
  replace (contract (cross_product k2 k2 k1 su sB s q J true) a b (nbasis k1 s)) with (times (inner1 true true s s q1 J) c).
  - rewrite (Inv c Lc'). rewrite (inner2_ok sb s q' J false true Rq' N' O' ltac:(discriminate) e _ ve (through (value (curl_field D)) F)).
    + unfold quad3. apply rsum_ext. intros x _. apply rsum_ext. intros y _. apply rsum_ext. intros z _. rewrite (DiscProofs3.dot_comm (ve _ _ _)). reflexivity.
    + apply Fe.
    + apply (curl_form q' G').
  - apply (dotl_all _ _ (nbasis k1 s)).
    + unfold times. rewrite map_length. apply S1.
    + apply len_map_seq.
    + intros e' Le'. symmetry. rewrite (contract_ok _ (nbasis k2 su) (nbasis k2 sB) (nbasis k1 s)); [|apply cp3_shape|rewrite nbasis_ok; apply Fu|rewrite nbasis_ok; apply FB|exact Le'].
      assert (Le : length e' = length (cells (degrees s) edges3)) by (rewrite Le'; apply (nbasis_ok k1)).
      assert (Fe' := some_field (qmesh q) e' Le N).
      rewrite (tri_C k2 k2 k1 su sB s q J true a b e' vu vB _ N O Fu FB Fe' Rq C).
      change (dotl e' (times (inner1 true true s s q1 J) c)) with (bilinear (inner1 true true s s q1 J) e' c). rewrite (Same e' Le').
      rewrite (inner1_ok s s q J true true Rq N O (fun _ => eq_refl) e' c _ _ (proj2 Fe') (proj2 (form1 q G))).
      unfold triple. rewrite !quad_points by exact Rq. apply rsum_ext. intros [w p] Hp. assert (Ip := in_wpts q w p Hp). cbn [fst snd].
      assert (Xp := in_points _ _ _ Hx Ip). destruct p as [[x y] z]. cbn [at_pt] in *. rewrite Xp. rewrite DiscProofs3.dot_comm. reflexivity.
Qed.
End Curl.
