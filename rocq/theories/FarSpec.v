(* What sums, differences and multiples of forms are: cochains on each element,
   and the fields they stand for. *)
From Coq Require Import Reals List Arith Bool.
From Verif Require Import TriModel FarModel ErrModel ErrSpec.
Import ListNotations.
Open Scope R_scope.
(* the entries of c are op of those of a and b *)
Definition entrywise (op : R -> R -> R) (a b c : list R) : Prop :=
  length a = length c /\ length b = length c /\ forall i x y, nth_error a i = Some x -> nth_error b i = Some y -> nth_error c i = Some (op x y).
Definition multiple (r : R) (a c : list R) : Prop := length a = length c /\ forall i x, nth_error a i = Some x -> nth_error c i = Some (r * x).
(* the form has on the element e the cochain c *)
Definition has (f : form) (e : nat) (c : list R) : Prop := exists l, f_local f = Some l /\ exists k, find (fun kv => Nat.eqb (fst kv) e) l = Some (k, c).
(* a form as its setter leaves it with the cochains of all elements *)
Definition full (els : nat -> list nat) (nbasis : nat -> nat -> nat) (f : form) : Prop :=
  forall e, In e (els (f_mesh f)) -> exists c, has f e c /\ length c = nbasis (f_class f) (f_space f).
Definition alike (a b : form) : Prop := f_class a = f_class b /\ f_mesh a = f_mesh b /\ f_space a = f_space b.
(* the same cochains, whatever the options *)
Definition same_cochains (els : nat -> list nat) (f g : form) : Prop := alike f g /\ forall e, In e (els (f_mesh f)) -> exists c, has f e c /\ has g e c.
Definition options_of (f : form) : bool * option TriModel.orient * nat := (o_hybrid (f_opts f), o_orient (f_opts f), o_numbering (f_opts f)).
(* f is a op b: of the same class, mesh and space, with cochains on all elements, op of those of a and b *)
Definition result_of (els : nat -> list nat) (nbasis : nat -> nat -> nat) (op : R -> R -> R) (a b f : form) : Prop :=
  alike a f /\ full els nbasis f /\ (exists l, f_local f = Some l) /\
  forall e x y, In e (els (f_mesh a)) -> has a e x -> has b e y -> exists c, has f e c /\ entrywise op x y c.
