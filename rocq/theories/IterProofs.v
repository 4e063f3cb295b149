(** Proofs about the time iterators. *)
From Coq Require Import List Arith ZArith Bool QArith Qround Lia Lqa.
From Verif Require Import Prelude IterModel IterSpec.
Import ListNotations.
Local Open Scope nat_scope.

Section Run.
  Variables T V : Type.
  Variable add : T -> T -> T.
  Variable ltb : T -> T -> bool.
  Variable solver : T -> T -> output V.
  Variable max_steps : nat.
  Variables (t0 dt0 : T) (initial : V).
  Notation time := (time T add t0 dt0).
  Notation table_to := (table_to T V add solver t0 dt0 initial).
  Notation goes_on := (goes_on T V add solver t0 dt0).
  Notation outputs_of := (outputs_of T V add solver t0 dt0).
  Notation body := (body T V add ltb solver (fun d => d)).
  Notation run := (run T V add ltb solver (fun d => d) max_steps).
  Notation iterations := (iterations T V add ltb solver (fun d => d) max_steps).
  Notation call := (call T V t0 dt0 initial).
  Notation saved := (saved T V add ltb solver (fun d => d) max_steps t0 dt0 initial).
  Hypothesis forward : forall i, i < max_steps -> ltb (time i) (time (S i)) = true.

  Lemma has_table n i : has_index T V (table_to n) i = (i <=? n).
  Proof.
    unfold has_index, IterSpec.table_to. destruct (Nat.leb_spec i n) as [L|L].
    - apply existsb_exists. exists (i, row_of T V add solver t0 dt0 initial i). split; [|apply Nat.eqb_refl].
      apply in_map_iff. exists i. split; [reflexivity|]. apply in_seq. lia.
    - destruct (existsb _ _) eqn:E; [|reflexivity]. apply existsb_exists in E. destruct E as ([j r] & Hin & E).
      apply Nat.eqb_eq in E. cbn [fst] in E. apply in_map_iff in Hin. destruct Hin as (j' & E' & Hin). apply in_seq in Hin.
      injection E' as -> _. lia.
  Qed.
  Lemma table_S n : table_to (S n) = table_to n ++ [(S n, row_of T V add solver t0 dt0 initial (S n))].
  Proof. unfold IterSpec.table_to. rewrite (seq_S (S n) 0), map_app. reflexivity. Qed.

  Definition inv (m k : nat) (s : istate T V) : Prop :=
    running_step T V s = S k /\ t T V s = time k /\ dt T V s = dt0 /\ shut_down_ T V s = false /\ reason T V s = None /\
    RDF T V s = table_to (Nat.max m k) /\ calls T V s = seq (S m) (k - m).
  Lemma inv_open m k s : inv m k s -> get_shut_down T V s = Some false.
  Proof. intros (_ & _ & _ & A & B & _). unfold get_shut_down. rewrite A, B. reflexivity. Qed.
  Lemma body_pass m k s : k < max_steps -> k < m -> inv m k s -> exists s', body s = Some s' /\ inv m (S k) s'.
  Proof.
    intros Hk Hm (A & B & C & D & E & F & G). unfold IterModel.body. cbv zeta. rewrite F, A, has_table.
    replace (Nat.max m k) with m by lia. destruct (Nat.leb_spec (S k) m); [|lia].
    cbn [IterModel.t IterModel.dt running_step shut_down_ reason exit_code RDF calls]. rewrite C, B.
    change (add (time k) dt0) with (time (S k)). rewrite (forward k Hk). cbn [negb set_shut_down IterModel.reason]. rewrite E.
    eexists. split; [reflexivity|]. unfold inv.
    cbn [running_step IterModel.t IterModel.dt shut_down_ IterModel.reason exit_code RDF calls].
    rewrite ?A. split; [reflexivity|]. split; [reflexivity|]. split; [first [assumption|reflexivity]|]. split; [reflexivity|]. split; [reflexivity|]. split.
    - rewrite F. replace (Nat.max m (S k)) with (Nat.max m k) by lia. reflexivity.
    - rewrite G. replace (S k - m) with (k - m) by lia. reflexivity.
  Qed.
  Lemma body_calc m k s : k < max_steps -> m <= k -> inv m k s ->
    body s = match shut (outputs_of (S k)), message_ok (outputs_of (S k)) with
             | SBool b, true => Some (mkI T V (S (S k)) (time (S k)) dt0 b (if b then Some None else None) (code (outputs_of (S k)))
                                   (table_to (S k)) (seq (S m) (S k - m)))
             | _, _ => None
             end.
  Proof.
    intros Hk Hm (A & B & C & D & E & F & G). unfold IterModel.body. cbv zeta. rewrite F, A, has_table.
    replace (Nat.max m k) with k by lia. destruct (Nat.leb_spec (S k) k); [lia|].
    cbn [IterModel.t IterModel.dt running_step shut_down_ reason exit_code RDF calls]. rewrite C, B.
    change (add (time k) dt0) with (time (S k)). rewrite (forward k Hk). cbn [negb].
    replace (solver (time k) (time (S k))) with (outputs_of (S k)).
    2:{ unfold IterSpec.outputs_of. replace (S k - 1) with k by lia. reflexivity. }
    unfold set_shut_down. cbn [IterModel.reason running_step IterModel.t IterModel.dt exit_code RDF calls]. rewrite E.
    assert (ET : set_row T V (table_to (Nat.max m k)) (S k) (time (S k), dt0, values (outputs_of (S k))) = table_to (S k)).
    { unfold set_row. replace (Nat.max m k) with k by lia. rewrite has_table. destruct (Nat.leb_spec (S k) k); [lia|].
      rewrite table_S. reflexivity. }
    assert (EC : calls T V s ++ [S k] = seq (S m) (S k - m)).
    { rewrite G. replace (S k - m) with (S (k - m)) by lia. rewrite seq_S. f_equal. f_equal. lia. }
    replace (Nat.max m k) with k in ET by lia. replace (Nat.max m k) with k in F by lia.
    replace (S (S k) - 1) with (S k) by lia.
    destruct (shut (outputs_of (S k))) as [[|]|w]; [| |reflexivity];
      destruct (message_ok (outputs_of (S k))); try reflexivity;
      cbn [running_step IterModel.t IterModel.dt shut_down_ IterModel.reason exit_code RDF calls];
      replace (S (S k) - 1) with (S k) by lia; rewrite ?F, ?ET, EC; reflexivity.
  Qed.
  Lemma body_goes m k s : k < max_steps -> (m <= k -> goes_on (S k)) -> inv m k s -> exists s', body s = Some s' /\ inv m (S k) s'.
  Proof.
    intros Hk Hg I. destruct (Nat.ltb_spec k m) as [L|L]; [apply (body_pass m k s Hk L I)|].
    rewrite (body_calc m k s Hk L I). destruct (Hg L) as (-> & ->). eexists. split; [reflexivity|].
    unfold inv. cbn [running_step IterModel.t IterModel.dt shut_down_ IterModel.reason exit_code RDF calls].
    replace (Nat.max m (S k)) with (S k) by lia. split; [reflexivity|]. repeat (split; [reflexivity|]). reflexivity.
  Qed.
  Lemma call_inv m : m <= max_steps -> inv m 0 (call (Some (table_to m))).
  Proof. intros H. unfold inv. cbn -[IterSpec.table_to]. rewrite Nat.max_0_r. repeat split. Qed.
  Lemma call_none : inv 0 0 (call None).
  Proof. unfold inv. cbn. repeat split. Qed.

  (** running on from iteration k *)
  Lemma run_goes m : forall j k s fuel, k + j = max_steps -> j <= fuel -> (forall i, Nat.max m k < i <= max_steps -> goes_on i) -> inv m k s ->
    exists s', run fuel s = IDone T V s' /\ inv m max_steps s'.
  Proof.
    induction j; intros k s fuel E L G I.
    - exists s. split; [|replace max_steps with k by lia; exact I].
      destruct fuel; cbn [IterModel.run]; rewrite (inv_open _ _ _ I); pose proof I as (-> & _);
        (destruct (Nat.leb_spec (S k) max_steps); [lia|reflexivity]).
    - destruct fuel; [lia|]. cbn [IterModel.run]. rewrite (inv_open _ _ _ I). pose proof I as (ER & _). rewrite ER.
      destruct (Nat.leb_spec (S k) max_steps); [|lia].
      destruct (body_goes m k s ltac:(lia)) as (s' & -> & I'); [intros; apply G; lia|exact I|].
      apply (IHj (S k) s' fuel); [lia|lia| |exact I']. intros i Hi. apply G. lia.
  Qed.
  Lemma iterations_inv m s0 : inv m 0 s0 -> (forall i, m < i <= max_steps -> goes_on i) ->
    forall k s, iterations k s0 = Some s -> k <= max_steps /\ inv m k s.
  Proof.
    intros I0 G. induction k; intros s; cbn [IterModel.iterations].
    - intros [= <-]. split; [lia|exact I0].
    - destruct (iterations k s0) as [s1|]; [|discriminate]. destruct (IHk s1 eq_refl) as (L & I1).
      rewrite (inv_open _ _ _ I1). pose proof I1 as (ER & _). rewrite ER.
      destruct (Nat.leb_spec (S k) max_steps) as [L2|]; [|discriminate]. intros EB.
      destruct (body_goes m k s1 ltac:(lia)) as (s2 & E2 & I2); [intros; apply G; lia|exact I1|].
      rewrite EB in E2. injection E2 as ->. split; [lia|exact I2].
  Qed.
  (** every file is a table of the uninterrupted run *)
  Lemma saved_prefix file : (forall i, 1 <= i <= max_steps -> goes_on i) -> saved file ->
    exists m, m <= max_steps /\ inv m 0 (call file).
  Proof.
    intros G H. induction H as [|file k s H IH E].
    - exists 0. split; [lia|apply call_none].
    - destruct IH as (m & Lm & I). destruct (iterations_inv m _ I ltac:(intros; apply G; lia) k s E) as (Lk & (_ & _ & _ & _ & _ & ET & _)).
      exists (Nat.max m k). split; [lia|]. rewrite ET. apply call_inv. lia.
  Qed.

  Lemma resume_ok file fuel : max_steps <= fuel -> (forall i, 1 <= i <= max_steps -> goes_on i) -> saved file ->
    exists s m, run fuel (call file) = IDone T V s /\ RDF T V s = table_to max_steps /\ t T V s = time max_steps /\
      RDF T V (call file) = table_to m /\ calls T V s = seq (S m) (max_steps - m).
  Proof.
    intros L G H. destruct (saved_prefix file G H) as (m & Lm & I).
    destruct (run_goes m max_steps 0 (call file) fuel eq_refl L ltac:(intros; apply G; lia) I) as (s & E & (_ & ET & _ & _ & _ & ER & EC)).
    exists s, m. split; [exact E|]. split; [rewrite ER; f_equal; lia|]. split; [exact ET|]. split; [|exact EC].
    destruct I as (_ & _ & _ & _ & _ & F & _). rewrite Nat.max_0_r in F. exact F.
  Qed.

  (** a run whose first output asking for something else than going on is that of step n *)
  Lemma run_until n m : 1 <= n <= max_steps -> m < n -> (forall i, m < i < n -> goes_on i) ->
    forall j k s fuel, k + j = n - 1 -> n - k <= fuel -> inv m k s ->
    run fuel s = match shut (outputs_of n), message_ok (outputs_of n) with
                 | SBool true, true => IDone T V (mkI T V (S n) (time n) dt0 true (Some None) (code (outputs_of n)) (table_to n) (seq (S m) (n - m)))
                 | SBool false, true => run (fuel - (n - k)) (mkI T V (S n) (time n) dt0 false None (code (outputs_of n)) (table_to n) (seq (S m) (n - m)))
                 | _, _ => IRaised T V
                 end.
  Proof.
    intros Hn Hm G. induction j; intros k s fuel E L I; (destruct fuel as [|fuel]; [lia|]); cbn [IterModel.run];
      rewrite (inv_open _ _ _ I); pose proof I as (ER & _); rewrite ER; (destruct (Nat.leb_spec (S k) max_steps); [|lia]).
    - assert (EN : n = S k) by lia. rewrite EN. rewrite (body_calc m k s) by (try exact I; lia).
      destruct (shut (outputs_of (S k))) as [[|]|w]; [| |reflexivity]; destruct (message_ok (outputs_of (S k))); try reflexivity.
      + destruct fuel; reflexivity.
      + replace (S fuel - (S k - k)) with fuel by lia. reflexivity.
    - destruct (body_goes m k s ltac:(lia)) as (s' & -> & I'); [intros; apply G; lia|exact I|].
      rewrite (IHj (S k) s' fuel ltac:(lia) ltac:(lia) I'). replace (S fuel - (n - k)) with (fuel - (n - S k)) by lia. reflexivity.
  Qed.
  Lemma shut_down_ok n m fuel : 1 <= n <= max_steps -> m < n -> (forall i, m < i < n -> goes_on i) -> n <= fuel ->
    shut (outputs_of n) = SBool true -> message_ok (outputs_of n) = true ->
    exists s, run fuel (call (Some (table_to m))) = IDone T V s /\ RDF T V s = table_to n /\ calls T V s = seq (S m) (n - m) /\ shut_down_ T V s = true.
  Proof.
    intros Hn Hm G L ES EM. rewrite (run_until n m Hn Hm G (n - 1) 0 _ fuel) by (try apply call_inv; lia).
    rewrite ES, EM. eexists. repeat split.
  Qed.
  Lemma reason_raises n m fuel w : 1 <= n <= max_steps -> m < n -> (forall i, m < i < n -> goes_on i) -> n <= fuel ->
    shut (outputs_of n) = SStr w -> run fuel (call (Some (table_to m))) = IRaised T V.
  Proof.
    intros Hn Hm G L ES. rewrite (run_until n m Hn Hm G (n - 1) 0 _ fuel) by (try apply call_inv; lia). rewrite ES. reflexivity.
  Qed.
  (** resuming from the table of a run that shut down: the following steps are computed *)
  Lemma resumed_shut_down n fuel : n <= max_steps -> max_steps <= fuel -> (forall i, n < i <= max_steps -> goes_on i) ->
    exists s, run fuel (call (Some (table_to n))) = IDone T V s /\ RDF T V s = table_to max_steps /\ calls T V s = seq (S n) (max_steps - n).
  Proof.
    intros Hn L G.
    destruct (run_goes n max_steps 0 (call (Some (table_to n))) fuel eq_refl L ltac:(intros; apply G; lia) (call_inv n Hn)) as (s & E & (_ & _ & _ & _ & _ & ER & EC)).
    exists s. split; [exact E|]. split; [rewrite ER; f_equal; lia|exact EC].
  Qed.
End Run.

Lemma saved_iter T V add ltb solver upd max t0 dt0 initial file k s tb :
  saved T V add ltb solver upd max t0 dt0 initial file -> iterations T V add ltb solver upd max k (call T V t0 dt0 initial file) = Some s ->
  RDF T V s = tb -> saved T V add ltb solver upd max t0 dt0 initial (Some tb).
Proof. intros H E <-. apply (saved_by _ _ _ _ _ _ _ _ _ _ file k s H E). Qed.

(** * parsing *)
Lemma qlt_bool a b : negb (Qle_bool b a) = true <-> (a < b)%Q.
Proof.
  rewrite negb_true_iff. split.
  - intros H. apply Qnot_le_lt. intros C. apply Qle_bool_iff in C. congruence.
  - intros H. destruct (Qle_bool b a) eqn:E; [|reflexivity]. apply Qle_bool_iff in E. lra.
Qed.
Lemma qlt_false a b : negb (Qle_bool b a) = false <-> (b <= a)%Q.
Proof. rewrite negb_false_iff. apply Qle_bool_iff. Qed.
Lemma ceiling_least t0 dt mt : (0 < dt)%Q -> least_reaching t0 dt mt (Qceiling ((mt - t0) / dt)).
Proof.
  intros H. assert (E : (mt == t0 + dt * ((mt - t0) / dt))%Q) by (field; lra). split.
  - rewrite E at 1. apply Qplus_le_r. rewrite !(Qmult_comm dt). apply Qmult_le_compat_r; [apply Qle_ceiling|lra].
  - intros k Hk. assert (L : ((mt - t0) / dt <= inject_Z k)%Q).
    { apply Qle_shift_div_r; [exact H|]. rewrite Qmult_comm. lra. }
    apply Qceiling_resp_le in L. rewrite Qceiling_Z in L. exact L.
Qed.
Lemma inject_pos z : (0 < z)%Z -> (0 < inject_Z z)%Q.
Proof. intros H. change 0%Q with (inject_Z 0). rewrite <- Zlt_Qlt. exact H. Qed.

Lemma parse_steps t0 dt n mt : (0 < dt)%Q -> (0 < n)%Z ->
  parse exactQ t0 (Some dt) (Some n) mt = Some (dt, n, (t0 + dt * inject_Z n)%Q).
Proof.
  intros Hd Hn. unfold parse. cbn [nltb exactQ ofZ]. change (inject_Z 0) with 0%Q. pose proof Hd as Hd'. apply qlt_bool in Hd'. rewrite Hd'. cbn [negb].
  pose proof Hn as Hn'. apply Z.ltb_lt in Hn'. rewrite Hn'. cbn [negb]. cbn [orb negb neqb nadd nmulz exactQ].
  rewrite (proj2 (Qeq_bool_iff _ _)) by reflexivity. reflexivity.
Qed.
Lemma parse_time t0 dt mt : (0 < dt)%Q -> (t0 < mt)%Q -> exists n,
  parse exactQ t0 (Some dt) None (Some mt) = Some (dt, n, (t0 + dt * inject_Z n)%Q) /\ (0 < n)%Z /\ least_reaching t0 dt mt n.
Proof.
  intros Hd Hm. exists (Qceiling ((mt - t0) / dt)). pose proof (ceiling_least t0 dt mt Hd) as LR.
  assert (Hn : (0 < Qceiling ((mt - t0) / dt))%Z).
  { assert (P : (0 < (mt - t0) / dt)%Q) by (apply Qlt_shift_div_l; lra).
    pose proof (Qle_ceiling ((mt - t0) / dt)) as Q. rewrite Zlt_Qlt. change (inject_Z 0) with 0%Q. lra. }
  split; [|split; [exact Hn|exact LR]].
  unfold parse. cbn [nltb exactQ ofZ nceil ndiv nsub]. change (inject_Z 0) with 0%Q.
  pose proof Hd as Hd'. apply qlt_bool in Hd'. rewrite Hd'. cbn [negb].
  pose proof Hm as Hm'. apply qlt_bool in Hm'. rewrite Hm'. cbn [negb].
  pose proof Hn as Hn'. apply Z.ltb_lt in Hn'. rewrite Hn'. cbn [orb negb neqb nadd nmulz exactQ].
  rewrite (proj2 (Qeq_bool_iff _ _)) by reflexivity. reflexivity.
Qed.
Lemma parse_both t0 n mt : (t0 < mt)%Q -> (0 < n)%Z -> exists dt,
  parse exactQ t0 None (Some n) (Some mt) = Some (dt, n, mt) /\ (0 < dt)%Q /\ (t0 + dt * inject_Z n == mt)%Q.
Proof.
  intros Hm Hn. exists ((mt - t0) / inject_Z n)%Q. pose proof (inject_pos n Hn) as Hq.
  assert (Hd : (0 < (mt - t0) / inject_Z n)%Q) by (apply Qlt_shift_div_l; lra).
  assert (E : (t0 + (mt - t0) / inject_Z n * inject_Z n == mt)%Q) by (field; lra).
  split; [|split; [exact Hd|exact E]].
  unfold parse. cbn [nltb exactQ ofZ ndiv nsub]. change (inject_Z 0) with 0%Q.
  pose proof Hm as Hm'. apply qlt_bool in Hm'. rewrite Hm'. cbn [negb].
  pose proof Hn as Hn'. apply Z.ltb_lt in Hn'. rewrite Hn'. cbn [negb].
  pose proof Hd as Hd'. apply qlt_bool in Hd'. rewrite Hd'. cbn [negb].
  cbn [orb negb neqb nadd nmulz exactQ]. rewrite (proj2 (Qeq_bool_iff _ _)) by exact E. reflexivity.
Qed.
Lemma parse_sound t0 dt n mt dt' n' mt' : parse exactQ t0 dt n mt = Some (dt', n', mt') ->
  (0 < dt' /\ t0 + dt' * inject_Z n' == mt')%Q /\ (0 < n')%Z.
Proof.
  assert (F : forall d k m, (0 < d)%Q -> 
    (if negb (nltb exactQ (ofZ exactQ 0) d || neqb exactQ (ofZ exactQ 0) d) then None
      else if negb (0 <? k)%Z then None
      else if negb (neqb exactQ (nadd exactQ t0 (nmulz exactQ d (ofZ exactQ k))) m) then None
      else Some (d, k, m)) = Some (dt', n', mt') -> (0 < dt' /\ t0 + dt' * inject_Z n' == mt')%Q /\ (0 < n')%Z).
  { intros d k m Hd. destruct (negb _); [discriminate|]. destruct (Z.ltb_spec 0 k) as [L|]; cbn [negb]; [|discriminate].
    destruct (neqb exactQ _ m) eqn:E; cbn [negb]; [|discriminate]. intros HH. apply Qeq_bool_iff in E.
    assert (E1 : dt' = d) by congruence. assert (E2 : n' = k) by congruence. assert (E3 : mt' = m) by congruence. rewrite E1, E2, E3. auto. }
  unfold parse. destruct dt as [d|].
  - destruct (nltb exactQ (ofZ exactQ 0) d) eqn:E; cbn [negb]; [|discriminate].
    assert (Hd : (0 < d)%Q) by (apply qlt_bool; exact E).
    specialize (fun k m => F d k m Hd). rewrite E in F.
    destruct n as [k|]; [destruct (Z.ltb_spec 0 k) as [L|]; cbn [negb]; [|discriminate]|].
    + intros H. apply (F k (nadd exactQ t0 (nmulz exactQ d (ofZ exactQ k)))). apply Z.ltb_lt in L. rewrite L. exact H.
    + destruct mt as [m|]; [|apply F]. destruct (nltb exactQ t0 m); cbn [negb]; [|discriminate]. destruct (nceil exactQ _); [|discriminate]. apply F.
  - destruct n as [k|]; [|discriminate]. destruct mt as [m|]; [|discriminate]. destruct (negb (nltb exactQ t0 m)); [discriminate|].
    destruct (0 <? k)%Z eqn:EK; cbn [negb]; [|discriminate].
    destruct (nltb exactQ (ofZ exactQ 0) _) eqn:E; cbn [negb]; [|discriminate]. intros H.
    apply (F (ndiv exactQ (nsub exactQ m t0) (ofZ exactQ k)) k m); [apply qlt_bool; exact E|]. rewrite E, EK. exact H.
Qed.
