(** Model of small components: components/miscellaneous/{timer,break_list,generalized_piecewise_function}.py,
    components/miscellaneous/checks/{check_no_splcharacter,check_filename,check_filename_mi}.py,
    components/decorators/memoize/memoize_1.py, components/functions/{_2dSpace,_3dSpace}/scaling.py,
    components/functions/_2dSpace/line_intersection.py, components/collections/take_closest.py,
    tools/iterators/base/monitor/do.py:___Pr_select_reasonable_amount_of_data___, the caches of
    objects/CSCG/base/spaces/_1d_basis/polynomials.py and objects/CSCG/_3d/spaces/polynomials/do.py:refine.
    Text is the list of its code points. Floats are rationals (no rounding). *)
From Coq Require Import List Arith ZArith QArith Qround Bool.
From Verif Require Import Prelude.
Import ListNotations.
Local Open Scope nat_scope.

(** * python text *)
Definition text := list nat.
(** str.split(sep) for a one character separator *)
Fixpoint split (sep : nat) (s : text) : list text :=
  match s with
  | [] => [[]]
  | c :: s' => if c =? sep then [] :: split sep s'
               else match split sep s' with [] => [[c]] | w :: ws => (c :: w) :: ws end
  end.
Definition count_char (c : nat) (s : text) : nat := length (filter (Nat.eqb c) s).
(** s[-k:] and s[:-k], k > 0 *)
Definition last_k (k : nat) (s : text) : text := skipn (length s - k) s.
Definition but_last_k (k : nat) (s : text) : text := firstn (length s - k) s.
Definition text_eqb (a b : text) : bool := if list_eq_dec Nat.eq_dec a b then true else false.

(** decimal digits; '%0wd' % z *)
Fixpoint digits_of (fuel : nat) (n : Z) : text :=
  match fuel with
  | O => []
  | S f => if (n <? 10)%Z then [48 + Z.to_nat n] else digits_of f (n / 10)%Z ++ [48 + Z.to_nat (n mod 10)%Z]
  end.
Definition digits (n : Z) : text := digits_of (S (Z.to_nat (Z.log2 n))) n.
Definition zeros_to (w : nat) (s : text) : text := repeat 48 (w - length s) ++ s.
Definition fmt (w : nat) (z : Z) : text :=
  if (z <? 0)%Z then 45 :: zeros_to (w - 1) (digits (- z)) else zeros_to w (digits z).
(** int(s) for an optional minus sign and digits (python accepts more: spaces, plus signs, underscores) *)
Definition is_digit (c : nat) : bool := (48 <=? c) && (c <=? 57).
Definition undigits (s : text) : option Z :=
  match s with
  | [] => None
  | _ => if forallb is_digit s then Some (fold_left (fun a c => 10 * a + (Z.of_nat c - 48))%Z s 0%Z) else None
  end.
Definition pyint (s : text) : option Z :=
  match s with
  | 45 :: s' => option_map Z.opp (undigits s')
  | _ => undigits s
  end.

(** * timer.py:51-118 *)
(** int(q); divmod(q, n) *)
Definition truncQ (q : Q) : Z := if Qle_bool 0 q then Qfloor q else Qceiling q.
Definition divmodQ (q n : Q) : Q * Q := let k := inject_Z (Qfloor (q / n)) in (k, (q - k * n)%Q).
Definition seconds2hms (q : Q) : text :=
  let '(minutes, seconds) := divmodQ q 60 in
  let '(hours, minutes) := divmodQ minutes 60 in
  [91] ++ fmt 2 (truncQ hours) ++ [58] ++ fmt 2 (truncQ minutes) ++ [58] ++ fmt 2 (truncQ seconds) ++ [93].
Definition seconds2dhms (q : Q) : text :=
  let days := truncQ (q / 86400) in
  let SECONDS := (q - 86400 * inject_Z days)%Q in
  let '(minutes, SECONDS) := divmodQ SECONDS 60 in
  let '(hours, minutes) := divmodQ minutes 60 in
  [91] ++ fmt 1 days ++ [58] ++ fmt 2 (truncQ hours) ++ [58] ++ fmt 2 (truncQ minutes) ++ [58] ++ fmt 2 (truncQ SECONDS) ++ [93].
Definition seconds2dhmsm (q : Q) : text :=
  let ms := ((q - inject_Z (truncQ q)) * 1000)%Q in
  let days := truncQ (q / 86400) in
  let SECONDS := (q - 86400 * inject_Z days)%Q in
  let '(minutes, SECONDS) := divmodQ SECONDS 60 in
  let '(hours, minutes) := divmodQ minutes 60 in
  [91] ++ fmt 1 days ++ [58] ++ fmt 2 (truncQ hours) ++ [58] ++ fmt 2 (truncQ minutes) ++ [58] ++ fmt 2 (truncQ SECONDS)
    ++ [46] ++ fmt 3 (truncQ ms) ++ [93].
Definition inside (s : text) : text := skipn 1 (but_last_k 1 s). (* s[1:-1] *)
Definition hms2seconds (s : text) : option Z :=
  match split 58 (inside s) with
  | [hh; mm; ss] =>
      match pyint hh, pyint mm, pyint ss with
      | Some h, Some m, Some x => Some (h * 3600 + m * 60 + x)%Z
      | _, _, _ => None
      end
  | _ => None
  end.
Definition dhms2seconds (s : text) : option Z :=
  match split 58 (inside s) with
  | [dd; hh; mm; ss] =>
      match pyint dd, pyint hh, pyint mm, pyint ss with
      | Some d, Some h, Some m, Some x => Some (d * 86400 + h * 3600 + m * 60 + x)%Z
      | _, _, _, _ => None
      end
  | _ => None
  end.
Definition dhmsm2seconds (s : text) : option Q :=
  match split 46 s with
  | [hms; ms] =>
      match pyint (but_last_k 1 ms), split 58 (skipn 1 hms) with
      | Some ms, [dd; hh; mm; ss] =>
          match pyint dd, pyint hh, pyint mm, pyint ss with
          | Some d, Some h, Some m, Some x => Some (inject_Z (d * 86400 + h * 3600 + m * 60 + x) + inject_Z ms / 1000)%Q
          | _, _, _, _ => None
          end
      | _, _ => None
      end
  | _ => None
  end.

(** * break_list.py:3-20. L[a:b] of python for any integers *)
Definition clip (n : nat) (i : Z) : nat := Z.to_nat (Z.min (Z.of_nat n) (if (i <? 0)%Z then Z.max 0 (i + Z.of_nat n) else i)).
Definition pyslice {A} (l : list A) (a b : Z) : list A :=
  let a := clip (length l) a in let b := clip (length l) b in firstn (b - a) (skipn a l).
Definition break_list_into_parts {A} (LIST : list A) (parts : list Z) : list (list A) :=
  snd (fold_left (fun '(start, RET) p => ((start + p)%Z, RET ++ [pyslice LIST start (start + p)])) parts (0%Z, [])).

(** * memoize_1.py:6-28, a history of calls; [key] is str(args) + str(kwargs) *)
Section Memo.
  Variables A B : Type.
  Variable key : A -> text.
  Variable f : A -> B.
  Definition memo_call (cache : list (text * B)) (a : A) : list (text * B) * B :=
    match find (fun p => text_eqb (fst p) (key a)) cache with
    | Some p => (cache, snd p)
    | None => ((key a, f a) :: cache, f a)
    end.
  Fixpoint memo_run (cache : list (text * B)) (calls : list A) : list B :=
    match calls with
    | [] => []
    | a :: calls' => let '(cache, b) := memo_call cache a in b :: memo_run cache calls'
    end.
End Memo.
(** how numpy prints a one dimensional array of ints: more than 1000 entries are summarised *)
Definition np_str (l : list Z) : text :=
  let show := fun l => flat_map (fun z => 32 :: fmt 1 z) l in
  if 1000 <? length l then [91] ++ show (firstn 3 l) ++ [32; 46; 46; 46] ++ show (skipn (length l - 3) l) ++ [93]
  else [91] ++ show l ++ [93].

(** * check_no_splcharacter.py:14-18: none of @!#$%^&*()<>?/\|}{~: (the regular expression's backslash escapes the
    bar, so that a backslash itself is allowed) *)
Definition special : list nat := [64; 33; 35; 36; 37; 94; 38; 42; 40; 41; 60; 62; 63; 47; 124; 125; 123; 126; 58].
Definition check_no_splcharacter (s : text) : bool := negb (existsb (fun c => existsb (Nat.eqb c) special) s).
(** * check_filename_mi.py:6-18; None: AssertionError *)
Definition dot_mi : text := [46; 109; 105].
Definition check_filename_mi (filename : text) : option text :=
  if negb (check_no_splcharacter filename) then None
  else if negb (length filename <=? 64) then None
  else
    let filename := if text_eqb (last_k 3 filename) dot_mi then filename else filename ++ dot_mi in
    let filename := if 1 <? count_char 46 filename
                    then but_last_k 3 (map (fun c => if c =? 46 then 95 else c) filename) ++ dot_mi else filename in
    if negb ((count_char 46 filename =? 1) && text_eqb (last_k 3 filename) dot_mi) then None
    else if existsb (Nat.eqb 32) filename then None
    else Some filename.
(** * check_filename.py:6-60 *)
Definition join (sep : nat) (l : list text) : text :=
  match l with [] => [] | w :: l' => w ++ flat_map (fun v => sep :: v) l' end.
Definition is_alnum (c : nat) : bool := is_digit c || ((65 <=? c) && (c <=? 90)) || ((97 <=? c) && (c <=? 122)).
Definition check_filename (filename : text) : option (text * option text) :=
  if negb (check_no_splcharacter filename) then None
  else if negb (length filename <=? 64) then None
  else
    let filename := if 1 <? count_char 46 filename
                    then let l := split 46 filename in join 95 (removelast l) ++ [46] ++ last l [] else filename in
    if negb (count_char 46 filename <=? 1) then None
    else
      match (if count_char 46 filename =? 0 then Some (filename, None)
             else match split 46 filename with [a; b] => Some (a, Some b) | _ => None end) with
      | None => None
      | Some (file_name, extension) =>
          if (match extension with Some e => forallb is_digit e | None => false end) then None
          else if negb (existsb is_alnum file_name) then None
          else if (match file_name with c :: _ => is_digit c | [] => true end) then None
          else if existsb (Nat.eqb 32) file_name then None
          else Some (file_name, extension)
      end.

(** * generalized_piecewise_function.py:101-133; xi are the zipped arguments, all arrays have one shape. [cast] is
    the conversion to result_type of xi. None: an exception *)
Section Piecewise.
  Variables X Y : Type.
  Variable cast : Y -> Y.
  Inductive piece := Fn (F : list X -> list Y) | Scalar (y : Y).
  Definition extract {A} (cond : list bool) (l : list A) : list A := map snd (filter fst (combine cond l)).
  (** np.place(out, mask, vals): the j-th true position takes vals[j mod len(vals)] *)
  Fixpoint place_from (j : nat) (vals : list Y) (d : Y) (out : list Y) (mask : list bool) : list Y :=
    match out, mask with
    | o :: out', true :: mask' => nth (j mod length vals) vals d :: place_from (S j) vals d out' mask'
    | o :: out', false :: mask' => o :: place_from j vals d out' mask'
    | _, _ => out
    end.
  Definition place (out : list Y) (mask : list bool) (vals : list Y) : option (list Y) :=
    match vals with
    | [] => if existsb (fun b => b) mask then None else Some out
    | v :: _ => Some (place_from 0 vals v out mask)
    end.
  Fixpoint pieces_loop (xs : list X) (l : list (list bool * piece)) (out : list Y) : option (list Y) :=
    match l with
    | [] => Some out
    | (cond, func) :: l' =>
        match place out cond (map cast (match func with Fn F => F (extract cond xs) | Scalar y => [y] end)) with
        | None => None
        | Some out => pieces_loop xs l' out
        end
    end.
  (** the logical or over the conditions, negated *)
  Fixpoint no_cond (n : nat) (condlist : list (list bool)) : list bool :=
    match condlist with
    | [] => repeat true n
    | c :: l => map (fun p => negb (fst p) && snd p) (combine c (no_cond n l))
    end.
  Definition genpiecewise (xs : list X) (condlist : list (list bool)) (funclist : list piece) (fillvalue : Y) : option (list Y) :=
    let nc := length condlist in let nf := length funclist in
    if negb ((nf =? S nc) || (nc =? nf)) then None
    else match condlist with
         | [] => None
         | c0 :: _ =>
             let condlist := if nf =? S nc then condlist ++ [no_cond (length c0) condlist] else condlist in
             pieces_loop xs (combine condlist funclist) (repeat (cast fillvalue) (length c0))
         end.
End Piecewise.

(** * line_intersection.py:4-41 *)
Definition det (a b : Q * Q) : Q := (fst a * snd b - snd a * fst b)%Q.
Definition find_line_intersection (a1 a2 b1 b2 : Q * Q) : option (Q * Q) :=
  let xdiff := (fst a1 - fst a2, fst b1 - fst b2)%Q in
  let ydiff := (snd a1 - snd a2, snd b1 - snd b2)%Q in
  let div := det xdiff ydiff in
  if Qeq_bool div 0 then None
  else let d := (det a1 a2, det b1 b2) in Some (det d xdiff / div, det d ydiff / div)%Q.

(** * take_closest.py:9-25 with bisect_left of the standard library *)
Fixpoint bisect_loop (fuel : nat) (l : list Q) (x : Q) (lo hi : nat) : nat :=
  match fuel with
  | O => lo
  | S f => if lo <? hi then
             let mid := (lo + hi) / 2 in
             if negb (Qle_bool x (nth mid l 0%Q)) then bisect_loop f l x (S mid) hi else bisect_loop f l x lo mid
           else lo
  end.
Definition bisect_left (l : list Q) (x : Q) : nat := bisect_loop (S (length l)) l x 0 (length l).
Definition take_closest (l : list Q) (x : Q) : option Q :=
  let pos := bisect_left l x in
  if pos =? 0 then nth_error l 0
  else if pos =? length l then nth_error l (length l - 1)
  else match nth_error l (pos - 1), nth_error l pos with
       | Some before, Some after => Some (if negb (Qle_bool (x - before) (after - x)) then after else before)
       | _, _ => None
       end.

(** * monitor/do.py:37-55; np.linspace(0, N - last, n + 1).astype(int) in exact arithmetic *)
Definition select_rows (N max_num last_num : nat) : option (list nat) :=
  if negb (10 <=? max_num) then None
  else if negb ((1 <=? last_num) && (last_num <? max_num)) then None
  else Some (if max_num <? N then
               map (fun i => i * (N - last_num) / (max_num - last_num)) (seq 0 (max_num + 1 - last_num))
               ++ map (fun i => N + 1 - last_num + i) (seq 0 (last_num - 1))
             else seq 0 N).

(** * scaling.py:5-15 (2d and 3d): the object remembers the function of its last call; what a call returns is the
    object's own bound method. A state is the list of the objects made, an object its constant and its _func_; a
    returned function is represented by the number of its object *)
Section Scaling.
  Variables X Y : Type.
  Variable mul : Y -> Y -> Y.
  Definition scalings : Type := list (Y * option (X -> Y)).
  Definition new_scaling (st : scalings) (C : Y) : scalings := st ++ [(C, None)].
  Fixpoint call_scaling (st : scalings) (o : nat) (f : X -> Y) : scalings :=
    match st, o with
    | [], _ => []
    | (C, _) :: st', O => (C, Some f) :: st'
    | p :: st', S o' => p :: call_scaling st' o' f
    end.
  (** _scaled_func_ of object o at x; None: no such object or attribute *)
  Definition scaled_func (st : scalings) (o : nat) (x : X) : option Y :=
    match nth_error st o with Some (C, Some f) => Some (mul C (f x)) | _ => None end.
End Scaling.

(** * polynomials.py:97-104 and 115-124: the basis caches. Arrays live at addresses; the cache keeps a reference to
    the array and the value computed from it. [basis] is the evaluation itself *)
Section BasisCache.
  Variables V B : Type.
  Variable veqb : V -> V -> bool.   (** same shape and all entries equal *)
  Variable basis : V -> B.
  Record bstate := mkB { heap : nat -> V; cached : option (nat * B) }.
  Inductive bop := Assign (a : nat) (v : V) | Eval (a : nat).
  Definition bstep (st : bstate) (op : bop) : bstate * option B :=
    match op with
    | Assign a v => (mkB (fun b => if b =? a then v else heap st b) (cached st), None)
    | Eval a =>
        match cached st with
        | Some (b, r) => if veqb (heap st a) (heap st b) then (st, Some r)
                         else let r := basis (heap st a) in (mkB (heap st) (Some (a, r)), Some r)
        | None => let r := basis (heap st a) in (mkB (heap st) (Some (a, r)), Some r)
        end
    end.
  Fixpoint brun (st : bstate) (ops : list bop) : list (option B) :=
    match ops with [] => [] | op :: ops' => let '(st, r) := bstep st op in r :: brun st ops' end.
  Fixpoint bend (st : bstate) (ops : list bop) : bstate :=
    match ops with [] => st | op :: ops' => bend (fst (bstep st op)) ops' end.
End BasisCache.

(** * _3d/spaces/polynomials/do.py: refine of the degrees by p = (p0, p1, p2) *)
Definition refine_degrees (px py pz : nat) (p : nat * nat * nat) : nat * nat * nat :=
  let '(p0, _, _) := p in (px + p0, py + p0, pz + p0).

(** * timer.py:60-62 in binary64: ms = (seconds - int(seconds)) * 1000, then %03d truncates. None: not finite *)
From Coq Require Import Floats.SpecFloat.
Definition fint (x : spec_float) : option Z :=
  match x with
  | S754_zero _ => Some 0%Z
  | S754_finite s m e => let v := match e with Zneg p => (Zpos m / 2 ^ Zpos p)%Z | _ => (Zpos m * 2 ^ e)%Z end in
                         Some (if s then (- v)%Z else v)
  | _ => None
  end.
Definition float_of (z : Z) : spec_float := binary_normalize 53 1024 z 0 false.
Definition float_ms (seconds : spec_float) : option Z :=
  match fint seconds with
  | Some k => fint (SFmul 53 1024 (SFsub 53 1024 seconds (float_of k)) (float_of 1000))
  | None => None
  end.
