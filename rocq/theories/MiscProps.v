(** Properties C38-C43, C54, C55, C71, C73-C75. Nothing but their statements and examples. *)
From Coq Require Import String Ascii List Arith ZArith QArith Qround Qabs Bool Lia Floats.SpecFloat.
From Verif Require Import Prelude MiscModel MiscSpec MiscProofs MiscProofs2 MiscProofs3.
Import ListNotations.
Local Open Scope nat_scope.
Definition codes (s : string) : text := map nat_of_ascii (list_ascii_of_string s).

(** C38: [hh:mm:ss] and [d:hh:mm:ss] give back the whole seconds, of negative times too *)
Theorem C38_hms : forall q, hms2seconds (seconds2hms q) = Some (Qfloor q).
Proof. exact hms_round. Qed.
Print Assumptions C38_hms.
Theorem C38_dhms : forall q, dhms2seconds (seconds2dhms q) = Some (Qfloor q).
Proof. exact dhms_round. Qed.
Print Assumptions C38_dhms.
(** with milliseconds (exact arithmetic): the time cut to whole milliseconds *)
Theorem C38_dhmsm : forall q, (0 <= q)%Q ->
  exists r, dhmsm2seconds (seconds2dhmsm q) = Some r /\ (r == inject_Z (Qfloor (q * 1000)) / 1000)%Q.
Proof. exact dhmsm_round. Qed.
Print Assumptions C38_dhmsm.
(** and the text is the clock one expects *)
Theorem C38_text : forall z, (0 <= z < 360000)%Z ->
  seconds2hms (inject_Z z) = [91] ++ two_digits (z / 3600) ++ [58] ++ two_digits (z / 60 mod 60) ++ [58] ++ two_digits (z mod 60) ++ [93].
Proof. exact hms_text. Qed.
Print Assumptions C38_text.
Example C38_ex : seconds2hms 3725 = codes "[01:02:05]" /\ hms2seconds (codes "[01:02:05]") = Some 3725%Z /\
  seconds2dhms (1234567 # 10) = codes "[1:10:17:36]" /\ dhms2seconds (codes "[1:10:17:36]") = Some 123456%Z /\
  seconds2dhmsm (1234567891 # 10000) = codes "[1:10:17:36.789]" /\ seconds2hms (-1) = codes "[-1:59:59]".
Proof. vm_compute. repeat split. Qed.
(** in binary64 the milliseconds may be one too small: 1.001 s has 0 ms *)
Theorem C38_float_ms_refuted : ~ (forall k, (0 <= k < 1000)%Z ->
  float_ms (SFdiv 53 1024 (float_of (1000 + k)) (float_of 1000)) = Some k).
Proof. intros H. specialize (H 1%Z ltac:(lia)). vm_compute in H. discriminate H. Qed.
Print Assumptions C38_float_ms_refuted.

(** C39: consecutive pieces of the lengths asked for *)
Theorem C39_pieces : forall A (L : list A) ps,
  List.concat (break_list_into_parts L (map Z.of_nat ps)) = firstn (sum ps) L /\
  List.length (break_list_into_parts L (map Z.of_nat ps)) = List.length ps /\
  (sum ps <= List.length L -> map (@List.length A) (break_list_into_parts L (map Z.of_nat ps)) = ps).
Proof. exact break_ok. Qed.
Print Assumptions C39_pieces.
Example C39_ex : break_list_into_parts [5; 6; 7; 8; 9] [2; 0; 3]%Z = [[5; 6]; []; [7; 8; 9]].
Proof. reflexivity. Qed.
(** but wrong counts are not noticed *)
Theorem C39_rejects_refuted : ~ (forall (L : list nat) ps, List.concat (break_list_into_parts L (map Z.of_nat ps)) = L).
Proof. intros H. specialize (H [5; 6; 7] [1; 1]). discriminate H. Qed.
Print Assumptions C39_rejects_refuted.

(** C40: a memoized function returns the value at the first argument with the same text, *)
Theorem C40_first : forall A B (key : A -> text) (f : A -> B) calls i a, nth_error calls i = Some a ->
  nth_error (memo_run A B key f [] calls) i = Some (f (first_such (fun b => text_eqb (key b) (key a)) calls a)).
Proof. exact memo_first. Qed.
Print Assumptions C40_first.
(** hence the right value if the text determines the value *)
Theorem C40_value : forall A B (key : A -> text) (f : A -> B), (forall a b, key a = key b -> f a = f b) ->
  forall calls, memo_run A B key f [] calls = map f calls.
Proof. exact memo_ok. Qed.
Print Assumptions C40_value.
Example C40_ex : memo_run Z Z (fmt 1) (fun z => z * z)%Z [] [3; -3; 3; 12; 1; 2]%Z = [9; 9; 9; 144; 1; 4]%Z.
Proof. vm_compute. reflexivity. Qed.
(** which the text of a long array does not *)
Definition array40 (z : Z) : list Z := repeat 0%Z 4 ++ [z] ++ repeat 0%Z 1000.
Theorem C40_arrays_refuted : ~ (forall f calls, memo_run (list Z) Z np_str f [] calls = map f calls).
Proof.
  intros H. specialize (H (fun l => nth 4 l 0%Z) [array40 1; array40 2]). vm_compute in H. discriminate H.
Qed.
Print Assumptions C40_arrays_refuted.

(** C41: accepted are exactly the names without special characters and spaces and of at most 64 characters *)
Theorem C41_accepts : forall s, (exists r, check_filename_mi s = Some r) <-> legal_mi s.
Proof. exact mi_accepts. Qed.
Print Assumptions C41_accepts.
(** the result: dots before the ending .mi replaced *)
Theorem C41_result : forall s r, check_filename_mi s = Some r ->
  exists stem, stem_of s stem /\ r = under stem ++ ending_mi /\ count_char 46 r = 1 /\ ~ In 32 r /\ check_no_splcharacter r = true.
Proof. exact mi_result. Qed.
Print Assumptions C41_result.
Theorem C41_idempotent : forall s r, check_filename_mi s = Some r -> List.length r <= 64 -> check_filename_mi r = Some r.
Proof. exact mi_idem. Qed.
Print Assumptions C41_idempotent.
Example C41_ex : check_filename_mi (codes "a.b.mi") = Some (codes "a_b.mi") /\ check_filename_mi (codes "a.b") = Some (codes "a_b.mi") /\
  check_filename_mi (codes "a b") = None /\ check_filename_mi (codes "a:b") = None /\ check_filename_mi [] = Some (codes ".mi").
Proof. vm_compute. repeat split. Qed.
(** without the length it is not: the result may be too long for the next call *)
Theorem C41_idempotent_refuted : ~ (forall s r, check_filename_mi s = Some r -> check_filename_mi r = Some r).
Proof.
  intros H. specialize (H (repeat 97 62) (repeat 97 62 ++ ending_mi) eq_refl). vm_compute in H. discriminate H.
Qed.
Print Assumptions C41_idempotent_refuted.

(** C42: the last condition that holds, then the fill value or the default function *)
Theorem C42_fill : forall X Y (cast : Y -> Y) (xs : list X) conds ps gs fill, conds <> [] ->
  Forall (fun c => List.length c = List.length xs) conds -> Forall2 (@denotes X Y) ps gs -> List.length conds = List.length ps ->
  exists out, genpiecewise X Y cast xs conds ps fill = Some out /\ List.length out = List.length xs /\
    forall i x, nth_error xs i = Some x ->
      nth_error out i = Some (last_true (combine (map (fun c => nth i c false) conds) (map (fun g => cast (g x)) gs)) (cast fill)).
Proof. exact piecewise_fill. Qed.
Print Assumptions C42_fill.
Theorem C42_default : forall X Y (cast : Y -> Y) (xs : list X) conds ps pd gs gd fill, conds <> [] ->
  Forall (fun c => List.length c = List.length xs) conds -> Forall2 (@denotes X Y) ps gs -> denotes pd gd -> List.length conds = List.length ps ->
  exists out, genpiecewise X Y cast xs conds (ps ++ [pd]) fill = Some out /\ List.length out = List.length xs /\
    forall i x, nth_error xs i = Some x ->
      nth_error out i = Some (last_true (combine (map (fun c => nth i c false) conds) (map (fun g => cast (g x)) gs)) (cast (gd x))).
Proof. exact piecewise_default. Qed.
Print Assumptions C42_default.
Example C42_ex : genpiecewise Z Z (fun z => z) [1; 2; 3; 4]%Z [[true; true; false; false]; [false; true; false; true]]
    [Fn _ _ (map (fun z => 10 * z)%Z); Scalar _ _ 7%Z; Fn _ _ (map Z.opp)] 0%Z = Some [10; 7; -3; 7]%Z /\
  genpiecewise Z Z (fun z => z) [1; 2; 3; 4]%Z [[true; true; false; false]; [false; true; false; true]]
    [Fn _ _ (map (fun z => 10 * z)%Z); Scalar _ _ 7%Z] 5%Z = Some [10; 7; 5; 7]%Z.
Proof. vm_compute. split; reflexivity. Qed.
(** the values are converted to the type of the arguments: with integer arguments they are cut *)
Theorem C42_integers_refuted : ~ (forall xs conds ps gs fill out i x, Forall2 (@denotes Z Q) ps gs ->
  genpiecewise Z Q (fun y => inject_Z (truncQ y)) xs conds ps fill = Some out -> nth_error xs i = Some x ->
  nth_error out i = Some (last_true (combine (map (fun c => nth i c false) conds) (map (fun g => g x) gs)) fill)).
Proof.
  intros H. specialize (H [1%Z] [[true]] [Scalar _ _ (1 # 2)%Q] [fun _ => (1 # 2)%Q] 0%Q [0%Q] 0 1%Z).
  specialize (H ltac:(constructor; [intros x; reflexivity | constructor]) eq_refl eq_refl). discriminate H.
Qed.
Print Assumptions C42_integers_refuted.

(** C43: None exactly for parallel lines, else the only common point *)
Theorem C43_none : forall a1 a2 b1 b2, find_line_intersection a1 a2 b1 b2 = None <-> parallel a1 a2 b1 b2.
Proof. exact line_none. Qed.
Print Assumptions C43_none.
Theorem C43_point : forall a1 a2 b1 b2 p, find_line_intersection a1 a2 b1 b2 = Some p ->
  on_line p a1 a2 /\ on_line p b1 b2 /\ forall q, on_line q a1 a2 -> on_line q b1 b2 -> (fst q == fst p /\ snd q == snd p)%Q.
Proof. exact line_some. Qed.
Print Assumptions C43_point.
Example C43_ex : exists p, find_line_intersection (0, 0)%Q (1, 1)%Q (1, 0)%Q (0, 1)%Q = Some p /\ (fst p == 1 # 2 /\ snd p == 1 # 2)%Q.
Proof. eexists. split; [reflexivity | split; reflexivity]. Qed.

(** C54: as long as no evaluated array is assigned afterwards, every evaluation is that of the present content *)
Theorem C54_fresh : forall V B (veqb : V -> V -> bool) (basis : V -> B), (forall v w, veqb v w = true -> v = w) ->
  forall ops h, clean [] ops -> brun V B veqb basis (mkB V B h None) ops = fresh_run basis h ops.
Proof. exact cache_fresh. Qed.
Print Assumptions C54_fresh.
Example C54_ex : let ops := [Assign Z 1 5%Z; Eval _ 0; Assign _ 2 5%Z; Eval _ 1; Eval _ 2] in
  clean [] ops /\ brun Z Z Z.eqb (fun z => z + 1)%Z (mkB _ _ (fun _ => 0%Z) None) ops = [None; Some 1%Z; None; Some 6%Z; Some 6%Z].
Proof. vm_compute. repeat split; try discriminate; intuition discriminate. Qed.
(** otherwise the old values are returned, whatever the basis *)
Theorem C54_stale_refuted : forall V B (veqb : V -> V -> bool) (basis : V -> B), (forall v, veqb v v = true) ->
  forall h v w, basis v <> basis w ->
  brun V B veqb basis (mkB V B h None) [Assign _ 0 v; Eval _ 0; Assign _ 0 w; Eval _ 0]
  <> fresh_run basis h [Assign _ 0 v; Eval _ 0; Assign _ 0 w; Eval _ 0].
Proof. exact cache_stale_neq. Qed.
Print Assumptions C54_stale_refuted.

(** C55: the degrees are right exactly for equal increments *)
Theorem C55_refine : forall px py pz a b c, refine_degrees px py pz (a, b, c) = (px + a, py + b, pz + c) <-> a = b /\ a = c.
Proof. exact refine_iff. Qed.
Print Assumptions C55_refine.
Theorem C55_refine_refuted : ~ (forall px py pz a b c, refine_degrees px py pz (a, b, c) = (px + a, py + b, pz + c)).
Proof. intros H. specialize (H 1 2 3 2 3 4). discriminate H. Qed.
Print Assumptions C55_refine_refuted.
Example C55_ex : refine_degrees 1 2 3 (1, 1, 1) = (2, 3, 4).
Proof. reflexivity. Qed.

(** C71 *)
Theorem C71_closest : forall l x, ascending l -> l <> [] -> exists v, take_closest l x = Some v /\ closest l x v.
Proof. exact closest_ok. Qed.
Print Assumptions C71_closest.
Example C71_ex : ascending [1; 3; 3; 8]%Q /\ take_closest [1; 3; 3; 8]%Q 2 = Some 1%Q /\ take_closest [1; 3; 3; 8]%Q (28 # 5) = Some 8%Q /\
  take_closest [1; 3; 3; 8]%Q (-5) = Some 1%Q.
Proof.
  split; [|vm_compute; repeat split].
  cbn. repeat split; intros y Hy; repeat (destruct Hy as [<- | Hy]; [vm_compute; discriminate|]); destruct Hy.
Qed.

(** C73: a scaled function follows the last call of its object, *)
Theorem C73_last : forall X Y (mul : Y -> Y -> Y) ops st o C g f x, nth_error st o = Some (C, g) ->
  (forall o' f', In (Call o' f') ops -> o' <> o) ->
  scaled_func X Y mul (fold_left (sstep X Y) ops (sstep X Y st (Call o f))) o x = Some (mul C (f x)).
Proof. exact scaling_last. Qed.
Print Assumptions C73_last.
(** so that the functions returned before change with it *)
Theorem C73_earlier_refuted : ~ (forall (ops : list (sop Z Z)) st o C g f x, nth_error st o = Some (C, g) ->
  scaled_func Z Z Z.mul (fold_left (sstep Z Z) ops (sstep Z Z st (Call o f))) o x = Some (C * f x)%Z).
Proof. intros H. specialize (H [Call 0 Z.opp] [(3%Z, None)] 0 3%Z None (fun z => z) 5%Z eq_refl). discriminate H. Qed.
Print Assumptions C73_earlier_refuted.
Example C73_ex : scaled_func Z Z Z.mul (fold_left (sstep Z Z) [New 2; Call 0 (fun z => z + 1); Call 1 Z.opp]%Z [(3%Z, None)]) 0 5%Z = Some 18%Z.
Proof. reflexivity. Qed.

(** C74 *)
Theorem C74_rows : forall N m k l, select_rows N m k = Some l ->
  increasing l /\ (forall i, In i l -> i < N) /\ List.length l = Nat.min m N /\ (0 < N -> In 0 l) /\ (forall i, i < N -> N <= i + k -> In i l).
Proof. exact rows_ok. Qed.
Print Assumptions C74_rows.
Example C74_ex : select_rows 25 10 3 = Some [0; 3; 6; 9; 12; 15; 18; 22; 23; 24].
Proof. reflexivity. Qed.

(** C75 *)
Theorem C75_filename : forall s p, check_filename s = Some p ->
  (rejoin p = s \/ exists a e, s = a ++ 46 :: e /\ p = (under a, Some e)) /\
  (match p with (n, e) => ~ In 46 n /\ match e with Some e => ~ In 46 e | None => True end end) /\
  List.length (rejoin p) = List.length s /\ check_filename (rejoin p) = Some p.
Proof. exact filename_result. Qed.
Print Assumptions C75_filename.
Example C75_ex : check_filename (codes "a....12d") = Some (codes "a___", Some (codes "12d")) /\
  check_filename (codes "__aba_dSSF.mii") = Some (codes "__aba_dSSF", Some (codes "mii")) /\ check_filename (codes "abc") = Some (codes "abc", None) /\
  check_filename (codes "a.1") = None /\ check_filename (codes "1.a") = None /\ check_filename (codes "___") = None.
Proof. vm_compute. repeat split. Qed.
