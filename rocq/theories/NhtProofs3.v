(** Proofs about NhtModel: the surface dofs of a form with a prefixed numbering. *)
From Coq Require Import List Arith ZArith Bool Lia Permutation.
From Verif Require Import Prelude PreludeProofs RingSum AssembleModel AssembleSpec AssembleProofs SpaceModel SpaceSpec SpaceProofs SpaceProofs2 MeshMapModel MeshMapProofs2 TraceModel TraceSpec TraceProofs NumModel NumSpec NumProofs NumProofs4 NumProofs5 NhtModel NhtSpec NhtProofs NhtProofs2.
Import ListNotations.

Lemma sub_NoDup v idx : NoDup v -> NoDup idx -> (forall i, In i idx -> i < length v) -> NoDup (sub v idx).
Proof. intros V D H. unfold sub. apply SpaceProofs.NoDup_map_inj; [|exact D]. intros i j Hi Hj E. apply (proj1 (NoDup_nth v 0) V); auto. Qed.
Lemma keyed {A} (gm : list (nat * A)) N a e v b : map fst gm = seq 0 N -> gm = a ++ (e, v) :: b -> length a = e /\ e < N.
Proof.
  intros K ->. rewrite map_app in K. cbn [map fst] in K. assert (L : length a < N) by (assert (X := f_equal (@length nat) K); rewrite seq_length, app_length, map_length in X; cbn in X; lia).
  assert (X : nth_error (seq 0 N) (length a) = Some e) by (rewrite <- K, nth_error_app2, map_length, Nat.sub_diag by (rewrite map_length; lia); reflexivity).
  apply nth_error_nth with (d := 0) in X. rewrite seq_nth in X by lia. lia.
Qed.

Lemma NoDup_app_intro {A} (l m : list A) : NoDup l -> NoDup m -> (forall x, In x l -> In x m -> False) -> NoDup (l ++ m).
Proof.
  intros Hl Hm H. induction Hl as [|x l Nx Hl IH]; [exact Hm|]. cbn [app]. constructor; [rewrite in_app_iff; intros [?|?]; [contradiction|apply (H x); [now left|assumption]]|apply IH; intros y Hy; apply H; now right].
Qed.

Section Surface.
  Variables (p : list nat) (ts : list ctype).
  Let cs := cells p ts.
  Hypothesis HTy : SpaceProofs.types_ok p ts.
  Variables (int : list nat).
  Let surf := surface_of (length cs) int.
  Hypothesis Dint : NoDup int.
  Hypothesis Hint : forall n, In n int <-> exists c, nth_error cs n = Some c /\ on_surface p c = false.
  Lemma Hsurf n : In n surf <-> exists c, nth_error cs n = Some c /\ on_surface p c = true.
  Proof.
    unfold surf, surface_of. rewrite filter_In, in_seq, negb_true_iff. split.
    - intros [L M]. destruct (nth_error cs n) as [c|] eqn:E; [|apply nth_error_None in E; lia]. exists c. split; [reflexivity|]. destruct (on_surface p c) eqn:O; [reflexivity|].
      assert (X : In n int) by (apply Hint; eauto). apply mem_spec in X. congruence.
    - intros (c & E & O). split; [split; [lia|]; cbn; apply nth_error_Some; congruence|]. destruct (mem n int) eqn:M; [|reflexivity]. apply mem_spec in M. apply Hint in M as (c' & E' & O'). congruence.
  Qed.
  Lemma Dsurf : NoDup surf. Proof. apply NoDup_filter, seq_NoDup. Qed.
  Variables (N K : nat) (G : list (nat * list nat)).
  Hypothesis HT : total p ts N G.
  Hypothesis HC : consecutive G K.
  Hypothesis HP : prefixed G.
  Hypothesis HD : forall e v, In (e, v) G -> NoDup v.
  Hypothesis HS : forall a b n, numbered p ts G a n -> numbered p ts G b n -> on_surface p (snd a) = false -> a = b.
  Lemma at_pos e v x : In (e, v) G -> In x cs -> numbered p ts G (e, x) (nth (SpaceProofs.pos cs x) v 0).
  Proof.
    intros Hv Hx. exists v, (SpaceProofs.pos cs x). split; [exact Hv|]. split; [apply pos_nth; exact Hx|]. apply nth_error_nth'. rewrite (proj2 HT e v Hv). apply pos_lt. exact Hx.
  Qed.
  Lemma at_i e v i x : In (e, v) G -> nth_error cs i = Some x -> numbered p ts G (e, x) (nth i v 0).
  Proof. intros Hv Hx. rewrite <- (pos_eq cs x i (NoDup_cells p ts HTy) Hx). apply at_pos; [exact Hv|eapply nth_error_In; exact Hx]. Qed.
  Lemma one_vec e v w : In (e, v) G -> In (e, w) G -> v = w.
  Proof. intros A B. apply (dget_In Nat.eqb Nat.eqb_eq) in A, B; [congruence| |]; rewrite (proj1 HT); apply seq_NoDup. Qed.
  Lemma in_surf e v d : In (e, v) G -> (In d (sub v surf) <-> exists x, In x cs /\ on_surface p x = true /\ d = nth (SpaceProofs.pos cs x) v 0).
  Proof.
    intros Hv. unfold sub. rewrite in_map_iff. split.
    - intros (i & <- & Hi). apply Hsurf in Hi as (x & Hx & O). exists x. split; [eapply nth_error_In; exact Hx|]. split; [exact O|]. rewrite (pos_eq cs x i (NoDup_cells p ts HTy) Hx). reflexivity.
    - intros (x & Hx & O & ->). exists (SpaceProofs.pos cs x). split; [reflexivity|]. apply Hsurf. exists x. split; [apply pos_nth; exact Hx|exact O].
  Qed.
  Lemma in_S (vs : list (nat * list nat)) d : In d (S_ surf (map snd vs)) <-> exists e v, In (e, v) vs /\ In d (sub v surf).
  Proof.
    unfold S_. rewrite in_flat_map. split.
    - intros (v & Hv & H). apply in_map_iff in Hv as ([e v'] & <- & Hv). eauto.
    - intros (e & v & Hv & H). exists v. split; [apply in_map_iff; exists (e, v); auto|exact H].
  Qed.
  Lemma bnd i : In i int \/ In i surf -> i < length cs.
  Proof. intros Hi. apply nth_error_Some. destruct Hi as [Hi|Hi]; [apply Hint in Hi|apply Hsurf in Hi]; destruct Hi as (c & -> & _); discriminate. Qed.
  Lemma bounds e v i : In (e, v) G -> In i int \/ In i surf -> i < length v.
  Proof. intros Hv Hi. rewrite (proj2 HT e v Hv). apply bnd. exact Hi. Qed.
  Lemma G_fits e v : In (e, v) G -> fits int surf K v.
  Proof.
    intros Hv. split; [intros i; apply (bounds e v i Hv)|]. split; [intros d Hd; apply HC; eauto|]. split; [apply sub_NoDup; [exact (HD e v Hv)|exact Dsurf|intros i Hi; apply (bounds e v i Hv); auto]|].
    intros d Hd Hd'. unfold sub in *. apply in_map_iff in Hd as (i & E & Hi), Hd' as (j & E' & Hj). assert (i = j) by (apply (proj1 (NoDup_nth v 0) (HD e v Hv)); [apply (bounds e v i Hv)|apply (bounds e v j Hv)|congruence]; auto). subst j.
    apply Hint in Hi as (c & Ec & O). apply Hsurf in Hj as (c' & Ec' & O'). congruence.
  Qed.
  (** an internal dof is met only once *)
  Lemma int_once e v i f w j : In (e, v) G -> In (f, w) G -> In i int -> nth i v 0 = nth j w 0 -> j < length cs -> e = f /\ i = j.
  Proof.
    intros Hv Hw Hi E Lj. apply Hint in Hi as (c & Ec & O). destruct (nth_error cs j) as [c'|] eqn:Ej; [|apply nth_error_None in Ej; lia].
    assert (X : (e, c) = (f, c')) by (apply (HS (e, c) (f, c') (nth i v 0)); [apply at_i; assumption|rewrite E; apply at_i; assumption|exact O]).
    injection X as <- <-. split; [reflexivity|]. apply (NoDup_nth_inj cs i j c (NoDup_cells p ts HTy)); assumption.
  Qed.
  Lemma G_ordered : ordered int surf K (map snd G).
  Proof.
    intros a' v b' E. apply map_eq_app in E as (a & b0 & E & Ea & Eb). destruct b0 as [|[e v'] b]; [discriminate|]. cbn [map snd] in Eb. injection Eb as -> _. subst a'.
    destruct (keyed G N a e v b (proj1 HT) E) as [La Le]. assert (Hv : In (e, v) G) by (rewrite E; apply in_elt). split; [apply (G_fits e v Hv)|].
    assert (Lt : forall f w, In (f, w) a -> f < e /\ In (f, w) G).
    { intros f w H. assert (H' : In (f, w) G) by (rewrite E; apply in_app_iff; auto). split; [|exact H']. apply in_split in H as (a1 & a2 & ->). rewrite <- app_assoc in E.
      destruct (keyed G N a1 f w (a2 ++ (e, v) :: b) (proj1 HT) E) as [<- _]. rewrite <- La, app_length. cbn. lia. }
    assert (Gt : forall f w, In (f, w) G -> f < e -> In (f, w) a).
    { intros f w H H'. rewrite E in H. apply in_app_iff in H as [H|H]; [exact H|]. exfalso. apply in_split in H as (b1 & b2 & Eb). rewrite Eb, app_assoc in E.
      destruct (keyed G N (a ++ b1) f w b2 (proj1 HT) E) as [Hf _]. rewrite app_length in Hf. lia. }
    split.
    - intros d Hd Nd d' Hd'. destruct (HP e) as (n & Hn). assert (B : d' < n).
      { apply Hn. apply in_S in Hd' as (f & w & Hf & Hd'). destruct (Lt f w Hf) as [L1 L2]. exists f, w. split; [exact L1|]. split; [exact L2|]. eapply in_sub; [|exact Hd']. intros i Hi. apply (bounds f w i L2). auto. }
      assert (C : ~ d < n); [|lia]. intros C. apply Hn in C as (f & w & L1 & L2 & L3). apply Nd. apply in_S. exists f, w. split; [apply Gt; assumption|].
      apply (In_nth w d 0) in L3 as (j & Lj & Ej). rewrite (proj2 HT f w L2) in Lj. fold cs in Lj. destruct (nth_error cs j) as [c|] eqn:Ec; [|apply nth_error_None in Ec; lia].
      unfold sub. apply in_map_iff. exists j. split; [exact Ej|]. apply Hsurf. exists c. split; [exact Ec|]. destruct (on_surface p c) eqn:O; [reflexivity|]. exfalso.
      unfold sub in Hd. apply in_map_iff in Hd as (i & Ei & Hi). assert (Ij : In j int) by (apply Hint; eauto).
      assert (Q : f = e /\ j = i) by (apply (int_once f w j e v i L2 Hv Ij); [congruence|apply bnd; auto]). lia.
    - intros d Hd Hd'. apply in_S in Hd' as (f & w & Hf & Hd'). destruct (Lt f w Hf) as [L1 L2]. unfold sub in *. apply in_map_iff in Hd as (i & Ei & Hi), Hd' as (j & Ej & Hj).
      assert (Q : e = f /\ i = j) by (apply (int_once e v i f w j Hv L2 Hi); [congruence|apply bnd; auto]). lia.
  Qed.
  Lemma G_count : K = length (nodup Nat.eq_dec (S_ surf (map snd G))) + N * length int.
  Proof.
    set (I_ := flat_map (fun ev => sub (snd ev) int) G). assert (LI : length I_ = N * length int).
    { unfold I_. replace N with (length G) by (rewrite <- (map_length fst), (proj1 HT); apply seq_length). clear. induction G as [|ev G' IH]; [reflexivity|]. cbn [flat_map length]. rewrite app_length, IH. unfold sub. rewrite map_length. lia. }
    rewrite <- LI, <- app_length. rewrite <- (seq_length K 0) at 1. apply Permutation_length. apply NoDup_Permutation; [apply seq_NoDup| |].
    - apply NoDup_app_intro; [apply NoDup_nodup| |].
      + unfold I_. apply SpaceProofs.NoDup_flat_map; [apply (NoDup_map_inv fst); rewrite (proj1 HT); apply seq_NoDup| |].
        * intros [e v] Hv. cbn [snd]. apply sub_NoDup; [exact (HD e v Hv)|exact Dint|intros i Hi; apply (bounds e v i Hv); auto].
        * intros [e v] [f w] d Hv Hw Hd Hd'. cbn [snd] in *. unfold sub in *. apply in_map_iff in Hd as (i & Ei & Hi), Hd' as (j & Ej & Hj).
          assert (Q : e = f /\ i = j) by (apply (int_once e v i f w j Hv Hw Hi); [congruence|apply bnd; auto]). destruct Q as [<- _]. f_equal. exact (one_vec e v w Hv Hw).
      + intros d Hd Hd'. apply nodup_In, in_S in Hd as (f & w & Hw & Hd). unfold I_ in Hd'. apply in_flat_map in Hd' as ([e v] & Hv & Hd'). cbn [snd] in *. unfold sub in *. apply in_map_iff in Hd' as (i & Ei & Hi), Hd as (j & Ej & Hj).
        assert (Q : e = f /\ i = j) by (apply (int_once e v i f w j Hv Hw Hi); [congruence|apply bnd; auto]). destruct Q as [_ <-].
        apply Hint in Hi as (c & Ec & O). apply Hsurf in Hj as (c' & Ec' & O'). congruence.
    - intros d. rewrite in_seq, in_app_iff, nodup_In, in_S. unfold I_. rewrite in_flat_map. split.
      + intros [_ H]. cbn in H. apply HC in H as (e & v & Hv & H). apply (In_nth v d 0) in H as (j & Lj & Ej). rewrite (proj2 HT e v Hv) in Lj. fold cs in Lj. destruct (nth_error cs j) as [c|] eqn:Ec; [|apply nth_error_None in Ec; lia].
        destruct (on_surface p c) eqn:O; [left; exists e, v|right; exists (e, v)]; (split; [exact Hv|]); unfold sub; apply in_map_iff; exists j; (split; [exact Ej|]); [apply Hsurf|apply Hint]; eauto.
      + intros [(e & v & Hv & H)|([e v] & Hv & H)]; (split; [lia|]); cbn; apply HC; exists e, v; (split; [exact Hv|]); (eapply in_sub; [|exact H]); intros i Hi; apply (bounds e v i Hv); auto.
  Qed.
End Surface.
