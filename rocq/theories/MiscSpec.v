(** What the small components should do, stated without the functions of MiscModel (only its types are used). *)
From Coq Require Import List Arith ZArith QArith Qround Qabs Bool.
From Verif Require Import Prelude MiscModel.
Import ListNotations.
Local Open Scope nat_scope.

(** two decimal characters of a number below 100 *)
Definition two_digits (n : Z) : list nat := [48 + Z.to_nat (n / 10); 48 + Z.to_nat (n mod 10)].

(** the value of the last true entry of a row of (condition, value) pairs, else the default *)
Fixpoint last_true {Y} (l : list (bool * Y)) (d : Y) : Y :=
  match l with
  | [] => d
  | (b, y) :: l' => last_true l' (if b then y else d)
  end.

(** lines in the plane *)
Definition on_line (p a b : Q * Q) : Prop :=
  ((fst p - fst a) * (snd b - snd a) == (snd p - snd a) * (fst b - fst a))%Q.
Definition parallel (a1 a2 b1 b2 : Q * Q) : Prop :=
  ((fst a2 - fst a1) * (snd b2 - snd b1) == (snd a2 - snd a1) * (fst b2 - fst b1))%Q.

(** closest entries *)
Fixpoint ascending (l : list Q) : Prop :=
  match l with [] => True | x :: l' => (forall y, In y l' -> x <= y)%Q /\ ascending l' end.
Definition closest (l : list Q) (x v : Q) : Prop :=
  In v l /\ forall w, In w l -> (Qabs (x - v) <= Qabs (x - w) /\ (Qabs (x - w) == Qabs (x - v) -> v <= w))%Q.

Fixpoint increasing (l : list nat) : Prop :=
  match l with [] => True | x :: l' => (forall y, In y l' -> x < y) /\ increasing l' end.

(** the first entry of a history that satisfies a test *)
Fixpoint first_such {A} (p : A -> bool) (l : list A) (d : A) : A :=
  match l with [] => d | a :: l' => if p a then a else first_such p l' d end.

(** * file names *)
Definition forbidden : list nat := (* @ ! # $ % ^ & * ( ) < > ? / | } { ~ : *)
  [64; 33; 35; 36; 37; 94; 38; 42; 40; 41; 60; 62; 63; 47; 124; 125; 123; 126; 58].
Definition ending_mi : text := [46; 109; 105].
(** dots become underscores *)
Definition under (s : text) : text := map (fun c => if c =? 46 then 95 else c) s.
(** the part of a name before its .mi, if it has one *)
Definition stem_of (s stem : text) : Prop :=
  s = stem ++ ending_mi \/ (s = stem /\ forall t, s <> t ++ ending_mi).
Definition legal_mi (s : text) : Prop := (forall c, In c s -> ~ In c forbidden) /\ length s <= 64 /\ ~ In 32 s.
Definition rejoin (p : text * option text) : text :=
  match p with (n, None) => n | (n, Some e) => n ++ 46 :: e end.

(** * a piece of a piecewise function computes g point by point *)
Definition denotes {X Y} (p : piece X Y) (g : X -> Y) : Prop :=
  match p with Fn _ _ F => forall l, F l = map g l | Scalar _ _ y => forall x, g x = y end.

(** * histories of scaling objects, of basis evaluations *)
Inductive sop (X Y : Type) := New (C : Y) | Call (o : nat) (f : X -> Y).
Arguments New {X Y}. Arguments Call {X Y}.
Fixpoint fresh_run {V B} (basis : V -> B) (h : nat -> V) (ops : list (bop V)) : list (option B) :=
  match ops with
  | [] => []
  | Assign _ a v :: ops' => None :: fresh_run basis (fun b => if b =? a then v else h b) ops'
  | Eval _ a :: ops' => Some (basis (h a)) :: fresh_run basis h ops'
  end.
(** no array is assigned after it was evaluated *)
Fixpoint clean {V} (seen : list nat) (ops : list (bop V)) : Prop :=
  match ops with
  | [] => True
  | Assign _ a _ :: ops' => ~ In a seen /\ clean seen ops'
  | Eval _ a :: ops' => clean (a :: seen) ops'
  end.
