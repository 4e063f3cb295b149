(** Model of the core grouping, /repo/root/config/group.py. *)
From Coq Require Import List Arith ZArith Bool.
From Verif Require Import Prelude.
Import ListNotations.

(** group.py:20-29. [member_num] is taken to be an integer (the code applies [int] to it,
    group.py:28). [int(np.ceil(SIZE / member_num))] is exact ceiling division here (the code
    divides in binary64, exact for any realistic number of cores). *)
Definition derived_group_num (SIZE : nat) (member_num : Z) : nat :=
  if SIZE =? 1 then 1
  else
    let m := if (Z.of_nat SIZE <? member_num)%Z then SIZE
             else if (member_num <=? 1)%Z then 1
             else Z.to_nat member_num in
    (SIZE + m - 1) / m.

(** group.py:33 *)
Definition num_cores (SIZE group_num : nat) : list nat :=
  map (fun x => SIZE / group_num + (if x <? SIZE mod group_num then 1 else 0)) (seq 0 group_num).

(** group.py:34-36 *)
Definition groups (SIZE group_num : nat) : list (list nat) :=
  let nc := num_cores SIZE group_num in
  map (fun i => range (sum (firstn i nc)) (sum (firstn (i + 1) nc))) (seq 0 group_num).

(** The returned dict DG, group.py:39-51: 'group number', 'leaders', one entry
    [leader: other members] per group, and the optional 'my leader'. *)
Record DG := mkDG {
  group_number : nat;
  leaders : list nat;
  members_of : list (nat * list nat);
  my_leader : option nat
}.

(** group.py:43-49. [min(g)] of an increasing python range is its first element;
    the assertion [len(g) > 0] (and the ValueError of min) gives [None]. *)
Fixpoint fill_DG (RANK : nat) (gs : list (list nat)) (dg : DG) : option DG :=
  match gs with
  | [] => Some dg
  | [] :: _ => None
  | (leader :: rest) :: gs' =>
      fill_DG RANK gs'
        (mkDG (group_number dg) (leaders dg ++ [leader]) (members_of dg ++ [(leader, rest)])
              (if existsb (Nat.eqb RANK) (leader :: rest) then Some leader else my_leader dg))
  end.

(** group.py:9-51. [None] stands for a raised AssertionError/ValueError. A given
    [group_num] is an integer. *)
Definition GROUP_CORES (SIZE RANK : nat) (member_num : Z) (group_num : option Z) : option DG :=
  let g := match group_num with
           | None => Z.of_nat (derived_group_num SIZE member_num)
           | Some g => g
           end in
  if ((1 <=? g) && (g <=? Z.of_nat SIZE))%Z then                      (* :32 *)
    let gs := groups SIZE (Z.to_nat g) in
    match last gs [] with                                             (* :37 *)
    | [] => None
    | lg => if maxl lg =? SIZE - 1
            then fill_DG RANK gs (mkDG (length gs) [] [] None)
            else None
    end
  else None.
