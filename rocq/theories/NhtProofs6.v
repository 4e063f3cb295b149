(** Proofs about NhtModel: meshes with naive numberings, and boxes of elements. *)
From Coq Require Import List Arith ZArith Bool Lia Relations.
From Verif Require Import Prelude PreludeProofs RingSum AssembleModel AssembleSpec AssembleProofs SpaceModel SpaceSpec SpaceProofs SpaceProofs2 SpaceProofs4 MeshModel MeshSpec MeshProofs MeshMapModel MeshMapSpec MeshMapProofs2 TraceModel TraceSpec TraceProofs TraceProofs2 NumModel NumSpec NumProofs NumProofs3 NumProofs4 NumProofs5 NumProofs6 NhtModel NhtSpec NhtProofs NhtProofs2 NhtProofs3 NhtProofs4 NhtProofs5.
Import ListNotations.

Lemma touching_sym p ax up x y : touching p ax up x y -> touching p ax (negb up) y x.
Proof. intros (A & B & C). split; [destruct up; exact B|]. split; [destruct up; exact A|]. intros a Ha. symmetry. apply C. exact Ha. Qed.
Lemma facing_touch p ts ax up a x y : SpaceProofs.types_ok p ts -> Forall (fun n => 1 <= n) p -> ax < length p ->
  nth_error (filter (on_side p (ax, up)) (cells p ts)) a = Some x -> nth_error (filter (on_side p (ax, negb up)) (cells p ts)) a = Some y -> touching p ax up x y.
Proof.
  intros T F Ha Hx Hy. assert (X := facing_cells p ts ax T F Ha).
  assert (G : forall l m, Forall2 (touching p ax true) l m -> forall a x y, nth_error l a = Some x -> nth_error m a = Some y -> touching p ax true x y).
  { clear. induction 1 as [|x y l m Q F IH]; intros [|a] x' y' A B; try discriminate; cbn in A, B; [congruence|eapply IH; eassumption]. }
  destruct up; cbn [negb] in *; [eapply G; eassumption|]. change false with (negb true) at 1. apply touching_sym. eapply G; eassumption.
Qed.
Lemma touch_surface p ax up x y : ax < 3 -> length p = 3 -> touching p ax up x y -> on_surface p x = true.
Proof.
  intros Ha Hp (A & _ & _). apply existsb_exists. exists (ax, up). split.
  - destruct ax as [|[|[|]]]; [| | |lia]; destruct up; cbn; auto 10.
  - unfold on_side. cbn [fst snd]. rewrite A. rewrite (nth_error_as_nth p ax 0) by lia. unfold factor_eqb. cbn [fst snd Bool.eqb andb]. apply Nat.eqb_refl.
Qed.
Lemma nbr_entry (m : emap) e ax up f : nbr_of m e ax up f <-> entry m e (2 * ax + (if up then 1 else 0)) (El f).
Proof. reflexivity. Qed.

Section Mesh.
  Variables (px py pz : nat) (k : nform).
  Let p := [px; py; pz].
  Hypothesis Fp : Forall (fun n => 1 <= n) p.
  Hypothesis Low : k = F2 -> p <> [1; 1; 1].
  Let ts := types k 3.
  Variables (N : nat) (ms : list emap) (gms : list (list (nat * list nat))).
  Hypothesis HN : 0 < N.
  Hypothesis HL : map fst (concat ms) = seq 0 N.
  Hypothesis HR : forall e row, In (e, row) (concat ms) -> length row = 6.
  Hypothesis EN : naive k p ms = Some gms.
  Hypothesis HG : forall a b m n, cell_of p ts N a -> cell_of p ts N b -> glued p (nbr_of (concat ms)) a b -> numbered p ts (concat gms) a m -> numbered p ts (concat gms) b n -> m = n.
  Hypothesis HD : forall e x y m, numbered p ts (concat gms) (e, x) m -> numbered p ts (concat gms) (e, y) m -> x = y.
  Variables (outs : list (list (nat * tel) * list (nat * list nat))) (ups : list (list epair)).
  Hypothesis HO : Forall2 (fun (m : emap) o => map fst (snd o) = map fst m /\ forall e row, In (e, row) (snd o) -> length row = 6) ms outs.
  Hypothesis HE : forall e j f i t u, entry (concat (map snd outs)) e j t -> entry (concat (map snd outs)) f i u -> t = u <-> (e = f /\ j = i) \/ (entry (concat ms) e j (El f) /\ i = facing j).
  Let HR' : forall e row, In (e, row) (concat ms) -> length row = 2 * length p := HR.
  Let Tk : SpaceProofs.types_ok p ts := T_ok px py pz k.
  Lemma mesh_nonhybrid : exists L res n K, lg_of k p = Some L /\ nonhybrid k p gms (map snd outs) = Some res /\
    map (fun o => map fst (fst (fst o))) res = map (map fst) gms /\
    restriction p ts N L (concat gms) (concat (map (fun o => fst (fst o)) res)) n /\
    consecutive (concat gms) K /\ K = n + N * length (filter (fun c => negb (on_surface p c)) (cells p ts)) /\
    Forall2 (fun tm o => on_traces p ts L (fst (fst o)) tm (snd (fst o)) /\ dofs_here p ts L (fst (fst o)) (snd o)) (map snd outs) res.
  Proof.
    destruct (naive_total k p ms N HL HR' gms EN) as (HT & KM & K & HC). assert (SND := naive_sound k p ms N HL HR' gms EN). assert (PRE := naive_prefixed k p ms N HL HR' gms EN).
    change (types k (length p)) with ts in HT, SND.
    assert (CO : forall e x m, numbered p ts (concat gms) (e, x) m -> cell_of p ts N (e, x)).
    { intros e x m (v & i & Hv & Hi & _). cbn [fst snd] in *. split; cbn [fst snd]; [|eapply nth_error_In; exact Hi]. assert (X := in_map fst _ _ Hv). rewrite (proj1 HT) in X. apply in_seq in X. cbn in X. lia. }
    destruct (nonhybrid_ok px py pz k Fp Low N K gms (map snd outs) HN HT HC PRE) as (L & res & n & A1 & A2 & A3 & A4 & A5 & A6).
    - intros e v Hv. apply (NoDup_nth v 0). intros i j Hi Hj E. rewrite (proj2 HT e v Hv) in Hi, Hj. destruct (nth_error (cells p ts) i) as [x|] eqn:Ex; [|apply nth_error_None in Ex; lia]. destruct (nth_error (cells p ts) j) as [y|] eqn:Ey; [|apply nth_error_None in Ey; lia].
      assert (Q : x = y) by (apply (HD e x y (nth i v 0)); [apply (at_i p ts Tk N (concat gms) HT); assumption|rewrite E; apply (at_i p ts Tk N (concat gms) HT); assumption]). subst y. apply (NoDup_nth_inj (cells p ts) i j x (NoDup_cells p ts Tk)); assumption.
    - intros [e x] [f y] m Ha Hb O. assert (ID := SND _ _ _ (CO _ _ _ Ha) (CO _ _ _ Hb) Ha Hb). cbn [snd] in O.
      assert (X : forall a b, identified p ts (nbr_of (concat ms)) N a b -> a = b \/ (on_surface p (snd a) = true /\ on_surface p (snd b) = true)).
      { intros a b H. induction H as [a b (_ & _ & ax & up & Hn & Tc)|a|a b _ IH|a b c _ IH1 _ IH2]; [|left; reflexivity| |].
        - right. assert (Hax : ax < 3). { destruct Hn as (row & Hr & Hn). assert (X : 2 * ax + (if up then 1 else 0) < length row) by (apply nth_error_Some; congruence). rewrite (HR _ _ Hr) in X. destruct up; lia. }
          split; [exact (touch_surface p ax up _ _ Hax eq_refl Tc)|exact (touch_surface p ax (negb up) _ _ Hax eq_refl (touching_sym _ _ _ _ _ Tc))].
        - destruct IH as [->|[A B]]; auto.
        - destruct IH1 as [->|[A B]], IH2 as [<-|[C D]]; auto. }
      apply X in ID as [ID|[ID _]]; [exact ID|]. exfalso. assert (C : true = false) by exact (eq_trans (eq_sym ID) O). discriminate C.
    - clear - HO KM. assert (Q : Forall2 (fun (gm : list (nat * list nat)) (m : emap) => map fst gm = map fst m) gms ms).
      { revert KM. generalize ms. induction gms as [|g l IH]; intros [|m l'] E; try discriminate; constructor; cbn in E; [congruence|apply IH; congruence]. }
      clear KM. revert HO. generalize outs. induction Q as [|g m l l' E Q IH]; intros o HO; inversion HO as [|? o1 ? o2 [B1 B2] HO']; subst; cbn [map]; [constructor|]. constructor; [|apply IH; exact HO']. split; [congruence|exact B2].
    - intros t e j f i s r H1 H2 Hs Hr. assert (Q' : (e = f /\ j = i) \/ (entry (concat ms) e j (El f) /\ i = facing j)) by (apply (HE e j f i t t H1 H2); reflexivity).
      destruct Q' as [[<- <-]|[En ->]].
      + assert (s = r) by congruence. subst r. split; [reflexivity|]. intros a x y m m' Hx Hy M1 M2. assert (x = y) by congruence. subst y. destruct M1 as (v & q & Hv & Hq & Hm), M2 as (w & q' & Hw & Hq' & Hm'). cbn [fst snd] in *.
        assert (v = w) by exact (one_vec p ts N (concat gms) HT e v w Hv Hw). subst w. assert (q = q') by (apply (NoDup_nth_inj (cells p ts) q q' x (NoDup_cells p ts Tk)); assumption). congruence.
      + assert (J : exists (ax : nat) (up : bool), ax < 3 /\ j = 2 * ax + (if up then 1 else 0) /\ s = (ax, up) /\ r = (ax, negb up)).
        { assert (Hj : j < 6) by (change 6 with (length sides3); apply nth_error_Some; congruence). do 6 (destruct j as [|j]; [cbn in Hs, Hr; injection Hs as <-; injection Hr as <-; (first [exists 0, false; split; [lia|]; repeat split; reflexivity|exists 0, true; split; [lia|]; repeat split; reflexivity|exists 1, false; split; [lia|]; repeat split; reflexivity|exists 1, true; split; [lia|]; repeat split; reflexivity|exists 2, false; split; [lia|]; repeat split; reflexivity|exists 2, true; split; [lia|]; repeat split; reflexivity])|]). lia. }
        destruct J as (ax & up & Hax & Ej & -> & ->). split; [reflexivity|]. intros a x y m m' Hx Hy M1 M2. apply (HG (e, x) (f, y)); [eapply CO; exact M1|eapply CO; exact M2| |exact M1|exact M2].
        exists ax, up. cbn [fst snd]. split; [apply nbr_entry; rewrite <- Ej; exact En|]. exact (facing_touch p ts ax up a x y Tk Fp Hax Hx Hy).
    - exists L, res, n, K. repeat (split; [assumption|]). exact A6.
  Qed.
End Mesh.

Lemma cores_rows cs (outs : list (list (nat * tel) * list (nat * list nat))) (ms : list emap) : map fst cs = ms -> Forall2 good_core cs outs -> Forall2 (fun (m : emap) o => map fst (snd o) = map fst m /\ forall e row, In (e, row) (snd o) -> length row = 6) ms outs.
Proof. intros <- F. induction F as [|c o l l' (A & B & _) F IH]; cbn [map]; constructor; [split; assumption|exact IH]. Qed.

(** meshes whose naive numbering is conforming *)
Theorem mesh_conforming k p N ms ups gms outs G : length p = 3 -> Forall (fun n => 1 <= n) p -> (k = F2 -> p <> [1; 1; 1]) -> 0 < N ->
  map fst (concat ms) = seq 0 N -> (forall e row, In (e, row) (concat ms) -> length row = 6) ->
  (forall e j f, entry (concat ms) e j (El f) -> entry (concat ms) f (facing j) (El e)) ->
  naive k p ms = Some gms -> let ts := types k 3 in met_before p ts (nbr_of (concat ms)) N ->
  (forall e x y, cell_of p ts N (e, x) -> cell_of p ts N (e, y) -> identified p ts (nbr_of (concat ms)) N (e, x) (e, y) -> x = y) ->
  Forall2 selfp ms ups -> trace_elements (combine ms ups) = Some (outs, G) ->
  exists L res n K, lg_of k p = Some L /\ nonhybrid k p gms (map snd outs) = Some res /\
    map (fun o => map fst (fst (fst o))) res = map (map fst) ms /\
    restriction p ts N L (concat gms) (concat (map (fun o => fst (fst o)) res)) n /\
    consecutive (concat gms) K /\ K = n + N * length (filter (fun c => negb (on_surface p c)) (cells p ts)) /\
    Forall2 (fun tm o => on_traces p ts L (fst (fst o)) tm (snd (fst o)) /\ dofs_here p ts L (fst (fst o)) (snd o)) (map snd outs) res.
Proof.
  intros Hp Fp Low HN HL HR HSy EN ts MB NS SF ET. destruct p as [|px [|py [|pz [|]]]]; try discriminate.
  destruct (traces_ok N ms HL HR HSy ups SF) as (outs' & G' & ET' & GC & IFF & _). assert (X := eq_trans (eq_sym ET) ET').
  assert (outs' = outs) by (injection X; intros; symmetry; assumption). subst outs'. clear X.
  assert (LU : length ms = length ups) by (apply SpaceProofs.F2_length in SF; exact SF).
  assert (CF := proj2 (naive_conforming k [px; py; pz] ms N HL HR gms EN) MB).
  destruct (naive_total k [px; py; pz] ms N HL HR gms EN) as (HT & KM & _).
  assert (CO : forall e x m, numbered [px; py; pz] ts (concat gms) (e, x) m -> cell_of [px; py; pz] ts N (e, x)).
  { intros e x m (v & i & Hv & Hi & _). cbn [fst snd] in *. split; cbn [fst snd]; [|eapply nth_error_In; exact Hi]. assert (X := in_map fst _ _ Hv). rewrite (proj1 HT) in X. apply in_seq in X. cbn in X. lia. }
  rewrite <- KM. apply (mesh_nonhybrid px py pz k Fp Low N ms gms HN HL HR EN); [| | |exact IFF].
  - intros a b m n Ha Hb Hg M1 M2. apply (CF a b m n Ha Hb M1 M2). apply rst_step. auto.
  - intros e x y m M1 M2. apply (NS e x y (CO _ _ _ M1) (CO _ _ _ M2)). apply (CF (e, x) (e, y) m m (CO _ _ _ M1) (CO _ _ _ M2) M1 M2). reflexivity.
  - apply (cores_rows (combine ms ups)); [apply AssembleProofs.map_fst_combine; exact LU|exact GC].
Qed.
(** boxes *)
Theorem box_nonhybrid corner bnames bsides m g lay sc bps pairs :
  (forall b, In b bnames -> 1 <= b) -> (forall x, In x bsides -> In (fst x) bnames /\ snd (snd x) < 6) -> region_map corner 1 bnames bsides = Some m ->
  length lay = 3 -> Forall (fun n => 1 <= n) lay -> lens_ok (prodl lay) (sc 0) -> boundary_pairs bsides bps = Some pairs ->
  let num r := option_map fst (region_numbering g [lay] sc r) in let rm r i := name_of (m r i) in
  forall ps, concat_some (map (side_pairs num 1) pairs) = Some ps ->
  forall SIZE rs ms, partition SIZE (prodl lay) rs -> Forall2 (fun els mm => core_map num [lay] rm bnames pairs els = Some mm) rs ms ->
  forall per : nat -> bool, (forall a, a < 3 -> (per a = true <-> periodic_axis pairs a)) ->
  forall k p, length p = 3 -> Forall (fun n => 1 <= n) p -> (k = F2 -> p <> [1; 1; 1]) -> (forall a, a < 3 -> periodic_axis pairs a -> 2 <= nth a lay 0) ->
  let ts := types k 3 in
  exists A para gms outs G L res n, region_numbering g [lay] sc 0 = Some (A, para) /\ naive k p ms = Some gms /\
    trace_elements (map (fun mm => (mm, useful_pairs mm ps)) ms) = Some (outs, G) /\
    conforming p ts (prodl lay) (concat gms) (same_box lay p per (at_ A)) /\
    lg_of k p = Some L /\ nonhybrid k p gms (map snd outs) = Some res /\
    map (fun o => map fst (fst (fst o))) res = map (map fst) ms /\
    restriction p ts (prodl lay) L (concat gms) (concat (map (fun o => fst (fst o)) res)) n /\
    box_count lay p per ts = n + prodl lay * length (filter (fun c => negb (on_surface p c)) (cells p ts)) /\
    Forall2 (fun tm o => on_traces p ts L (fst (fst o)) tm (snd (fst o)) /\ dofs_here p ts L (fst (fst o)) (snd o)) (map snd outs) res.
Proof.
  intros HB HS E L3 HP1 HL HP num rm ps Eps SIZE rs ms PA HM per HPer k p Hp Fp Low H2 ts.
  destruct (one_region corner bnames bsides m g lay sc bps pairs HB HS E L3 HP1 HL HP SIZE rs ms PA HM per HPer k p Hp Fp H2) as (A & para & gms & EA & EN & KM & HT & HC & CF). fold ts in HT, HC, CF.
  destruct (one_box corner bnames bsides m g lay sc bps pairs HB HS E L3 HP1 HL HP SIZE rs ms PA HM per HPer) as (A' & para' & EA' & BJ & IC & KK & L6 & BX).
  assert (QA : A' = A) by congruence. subst A'. clear EA' para'.
  assert (H3 : Forall (fun lay => length lay = 3 /\ Forall (fun n => 1 <= n) lay) [lay]) by (constructor; auto).
  assert (HL' : forall r l, nth_error [lay] r = Some l -> lens_ok (prodl l) (sc r)) by (intros [|[|r]] l H; try discriminate; injection H as <-; exact HL).
  assert (SL : sum (map prodl [lay]) = prodl lay) by (cbn; lia).
  destruct (mesh_traces corner bnames bsides m g [lay] sc bps pairs HB HS E H3 HL' HP ps Eps SIZE rs ms ltac:(rewrite SL; exact PA) HM) as (outs & G & ET & GC & IFF & _).
  assert (Hd : length lay = length p) by lia. assert (Hper : forall a, a < length p -> per a = true -> 2 <= nth a lay 0) by (intros a Ha P; apply H2; [lia|]; apply HPer; [lia|exact P]).
  assert (HR' : forall e row, In (e, row) (concat ms) -> length row = 2 * length p) by (intros e row H; rewrite (L6 e row H); lia).
  assert (BX' : forall idx ax up f, Forall2 lt idx lay -> ax < length p -> (nbr_of (concat ms) (at_ A idx) ax up f <-> exists idx', Forall2 lt idx' lay /\ f = at_ A idx' /\ box_next lay per idx ax up idx')) by (intros; apply BX; [assumption|lia]).
  assert (TO : SpaceProofs.types_ok p ts) by (unfold ts; rewrite <- Hp; apply types_are_ok).
  assert (HN : 0 < prodl lay). {  clear - HP1. induction HP1 as [|n l Hn _ IH]; cbn; [lia|]. unfold prodl in IH. apply Nat.mul_pos_pos; [lia|exact IH]. }
  assert (CO : forall e x m, numbered p ts (concat gms) (e, x) m -> cell_of p ts (prodl lay) (e, x)).
  { intros e x n (v & i & Hv & Hi & _). cbn [fst snd] in *. split; cbn [fst snd]; [|eapply nth_error_In; exact Hi]. assert (X := in_map fst _ _ Hv). rewrite (proj1 HT) in X. apply in_seq in X. cbn in X. lia. }
  destruct p as [|px [|py [|pz [|]]]]; try discriminate. set (p := [px; py; pz]) in *.
  destruct (mesh_nonhybrid px py pz k Fp Low (prodl lay) ms gms HN KK L6 EN) with (outs := outs) as (L & res & n & K & R1 & R2 & R3 & R4 & R5 & R6 & R7).
  - intros a b m1 n1 Ha Hb Hg M1 M2. apply (CF a b m1 n1 Ha Hb M1 M2). apply (same_box_BQ lay p per (at_ A) (prodl lay) Hd BJ a b); [apply Ha|apply Hb|].
    apply (BQ_glued k lay p per (at_ A) ms (prodl lay) Hd Fp BJ HR' BX' a b Ha Hb Hg).
  - intros e x y m1 M1 M2. assert (Q : same_box lay p per (at_ A) (e, x) (e, y)) by (apply (CF (e, x) (e, y) m1 m1 (CO _ _ _ M1) (CO _ _ _ M2) M1 M2); reflexivity).
    destruct Q as (idx & idx' & F1 & F2 & E1 & E2 & Q). cbn [fst snd] in *. assert (idx' = idx) by (apply (proj2 (proj2 BJ)); auto; congruence). subst idx'.
    destruct (CO _ _ _ M1) as [_ Hx], (CO _ _ _ M2) as [_ Hy]. cbn [snd] in Hx, Hy. apply cell_axes in Hx, Hy; auto. destruct Hx as (Lx & _ & Fx), Hy as (Ly & _ & Fy).
    apply nth_cell_ext; [lia|]. rewrite Lx. intros a Ha. assert (Z := f_equal (fun l => nth a l (false, 0)) Q). cbn beta in Z. rewrite !box_cell_nth in Z by exact Ha. assert (Z1 := f_equal fst Z). assert (Z2 := f_equal snd Z). cbn [fst snd] in Z1, Z2.
    apply coord_same in Z2; [destruct (nth a x (false, 0)), (nth a y (false, 0)); cbn in *; congruence| | |apply Hper; exact Ha|apply ok_upto, Fx; exact Ha|apply ok_upto, Fy; exact Ha].
    + apply (proj1 (Forall_forall _ _) Fp). apply nth_In. exact Ha.
    + apply F2_lt_nth; [exact F1|lia].
  - apply (cores_rows (map (fun mm => (mm, useful_pairs mm ps)) ms)); [rewrite map_map; apply map_id|exact GC].
  - exact IFF.
  - exists A, para, gms, outs, G, L, res, n. rewrite <- KM. repeat (split; [assumption|]). split; [|exact R7].
    change (types k 3) with ts in R6. change [px; py; pz] with p in R6. rewrite <- R6. apply Nat.le_antisymm; apply Nat.nlt_ge; intros X.
    + apply HC, R5 in X. lia.
    + apply R5, HC in X. lia.
Qed.
Lemma nonhybrid_lowest gms tms : nonhybrid F2 [1; 1; 1] gms tms = None.
Proof. reflexivity. Qed.
