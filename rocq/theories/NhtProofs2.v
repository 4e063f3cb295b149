(** Proofs about NhtModel: the numbering of a non-hybrid trace form is that of the form, restricted to the surfaces. *)
From Coq Require Import List Arith ZArith Bool Lia Permutation.
From Verif Require Import Prelude PreludeProofs RingSum AssembleModel AssembleSpec AssembleProofs SpaceModel SpaceSpec SpaceProofs SpaceProofs2 SpaceProofs4 SpaceProofs7 SpaceProofs9 MeshMapModel MeshMapProofs2 TraceModel TraceSpec TraceProofs TraceProofs3 NumModel NumSpec NumProofs NumProofs4 NumProofs5 EdgeProofs EdgeProofs2 NhtModel NhtSpec NhtProofs.
Import ListNotations.

Section Facts.
  Variables (px py pz : nat).
  Let p := [px; py; pz].
  Hypothesis Fp : Forall (fun n => 1 <= n) p.
  Variable k : nform.
  Let ts := types k 3.
  Let cs := cells p ts.
  Lemma T_ok : SpaceProofs.types_ok p ts. Proof. exact (types_are_ok k p). Qed.
  Lemma lg_ok : exists L Nt, lg_of k p = Some L /\ numbers_surface p ts L Nt.
  Proof.
    destruct k; [destruct (lg0_ok px py pz Fp) as (L & Nt & E & H & _)|destruct (lg1_ok px py pz Fp) as (L & Nt & E & H & _)|destruct (lg2_ok px py pz Fp) as (L & Nt & E & H & _)]; exists L, Nt; split; assumption.
  Qed.
  Lemma int_ok : (k = F2 -> p <> [1; 1; 1]) -> exists l, internal_of k p = Some l /\ NoDup l /\ forall n, In n l <-> exists c, nth_error cs n = Some c /\ on_surface p c = false.
  Proof.
    intros H. destruct (internal_ok px py pz Fp) as (H0 & H1 & H2). unfold cs, ts. destruct k; [destruct H0 as (l & E & H0)|destruct H1 as (l & E & H1)|destruct (H2 (H eq_refl)) as (l & E & H3)]; exists l; split; assumption.
  Qed.
  Lemma nb_cells : nb (shapes_of k p) = length cs.
  Proof. unfold cs, ts. change 3 with (length p). rewrite shapes_types. apply nb_ok. Qed.
  Lemma local_side_ok s : In s sides3 -> local_side k p s = Some (map (SpaceProofs.pos cs) (filter (on_side p s) cs)).
  Proof.
    intros Hs. unfold local_side. change (shapes_of k p) with (shapes_of k p). rewrite shapes_types. change (length p) with 3. fold ts. rewrite SpaceProofs.numbering_ok.
    assert (Tk := T_ok). unfold cs. rewrite (filter_side_cells p s ts) by apply Tk.
    assert (E : map (fun c => match nth_error (arrs_from 0 (map (sizes p) ts)) c with Some a => ravel a (side_sel (length (shp a)) s) | None => None end) (side_comps k (fst s)) =
      map (fun t => Some (map (SpaceProofs.pos (cells p ts)) (filter (on_side p s) (cells_t p t)))) (filter (touches s) ts)).
    { assert (R : forall c t, nth_error ts c = Some t -> touches s t = true ->
        match nth_error (arrs_from 0 (map (sizes p) ts)) c with Some a => ravel a (side_sel (length (shp a)) s) | None => None end = Some (map (SpaceProofs.pos (cells p ts)) (filter (on_side p s) (cells_t p t)))).
      { intros c t Ht Tt. destruct (arrs_ex 0 (map (sizes p) ts) c (sizes p t)) as (a & Ha & _); [rewrite nth_error_map, Ht; reflexivity|]. rewrite Ha. eapply ravel_side; eassumption. }
      assert (F : Forall2 (fun c t => nth_error ts c = Some t /\ touches s t = true) (side_comps k (fst s)) (filter (touches s) ts)).
      { unfold ts. cbn in Hs. destruct k; repeat destruct Hs as [<-|Hs]; try contradiction; cbn; repeat constructor. }
      induction F as [|c t lc lt [H1 H2] F IH]; [reflexivity|]. cbn [map]. rewrite IH, (R c t H1 H2). reflexivity. }
    rewrite E. unfold concat_some. rewrite <- (map_map (fun t => map (SpaceProofs.pos (cells p ts)) (filter (on_side p s) (cells_t p t))) Some), all_some_Some. cbn [option_map]. f_equal.
    rewrite flat_map_concat_map, concat_map, map_map. reflexivity.
  Qed.
  Lemma side_cell s : In s sides3 -> exists x, In x cs /\ on_side p s x = true.
  Proof.
    intros Hs. unfold p in *. inversion Fp as [|? ? X1 Fp1]; subst. inversion Fp1 as [|? ? X2 Fp2]; subst. inversion Fp2 as [|? ? X3 _]; subst.
    assert (C : forall t i, In t ts -> length i = 3 -> Forall2 ok_factor [px; py; pz] (combine t i) -> In (combine t i) cs).
    { intros t i Ht Hi Fo. unfold cs. apply (in_cells p ts); [exact T_ok|]. exists t. split; [exact Ht|]. split; [|exact Fo]. apply SpaceProofs.map_fst_combine. rewrite Hi. symmetry. apply (types_len k 3 t Ht). }
    cbn in Hs. unfold ts in C. destruct k; repeat destruct Hs as [<-|Hs]; try contradiction;
    match goal with |- exists x, _ /\ on_side _ (?ax, ?up) x = true =>
      pose (i := map (fun a => if (a =? ax) && up then nth a [px; py; pz] 0 else 0) [0; 1; 2]);
      let go t := exists (combine t i); split; [apply C; [cbn; tauto|reflexivity|unfold i; cbn; repeat constructor; cbn; lia]|unfold i, on_side; cbn; rewrite ?Nat.eqb_refl; reflexivity] in
      first [go [false; false; false] | go [true; false; false] | go [false; true; false] | go [false; true; true] | go [true; false; true] | go [true; true; false]]
    end.
  Qed.
End Facts.
