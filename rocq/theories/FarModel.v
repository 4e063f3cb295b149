(* Arithmetic of forms: objects/CSCG/_3d/forms/base.py 49-181 (3D),
   objects/CSCG/_2d/forms/base.py 42-124 (2D) and
   objects/miUsGrid/triangular/forms/standard/base/main.py 41-46, 95-117 (tri).
   One core.  None is an exception. *)
From Coq Require Import String.
From Coq Require Import Reals List Arith Bool.
From Verif Require Import DiscModel TriModel.
Import ListNotations.
Open Scope R_scope.
Open Scope string_scope.

(* the options of a form (___kwargs___); 2D and tri classes have their
   orientation in the class *)
Record opts := mkOpts { o_hybrid : bool; o_orient : option orient; o_numbering : nat; o_name : string }.
(* cochain.local: a dict in order of insertion *)
Definition cochains := list (nat * list R).
(* classes, meshes and spaces by numbers: those that are ==.  CSCG meshes and
   spaces are == if their parameters are; triangular meshes if they are one *)
Record form := mkForm { f_class : nat; f_mesh : nat; f_space : nat; f_opts : opts; f_local : option cochains }.

Section Arith.
(* the elements of a mesh in this core, num.basis of a class with a space *)
Variables (els : nat -> list nat) (nbasis : nat -> nat -> nat).

Definition local_at (l : cochains) (e : nat) : option (list R) := option_map snd (find (fun kv => Nat.eqb (fst kv) e) l).
(* numpy: + and - of two arrays with one axis *)
Definition np_op (op : R -> R -> R) (a b : list R) : option (list R) :=
  if Nat.eqb (length a) (length b) then Some (map2 op a b)
  else match a, b with
       | [x], _ => Some (map (op x) b)
       | _, [y] => Some (map (fun x => op x y) a)
       | _, _ => None
       end.
(* the loop over the elements *)
Fixpoint loop (f : nat -> option (list R)) (es : list nat) : option cochains :=
  match es with
  | [] => Some []
  | e :: r => match f e, loop f r with Some c, Some l => Some ((e, c) :: l) | _, _ => None end
  end.
(* CSCG/base/forms/standard/cochain/main.py 250-268 *)
Definition set_local (n : nat) (l : cochains) : option cochains :=
  if forallb (fun kv => Nat.eqb (length (snd kv)) n) l then Some l else None.
(* miUsGrid/base/form/standard/cochain.py 162-181 *)
Definition set_local_tri (es : list nat) (n : nat) (l : cochains) : option cochains :=
  if Nat.eqb (length l) (length es) &&
     forallb (fun ij => match local_at l (fst ij) with Some c => Nat.eqb (length c) n | None => false end && Nat.eqb (fst ij) (snd ij)) (combine es (map fst l))
  then Some l else None.
(* result_form.cochain.local = COCHAIN_LOCAL *)
Definition with_local (c m s : nat) (o : opts) (l : option cochains) : option form :=
  match l with
  | Some d => option_map (fun d' => mkForm c m s o (Some d')) (set_local (nbasis c s) d)
  | None => None
  end.
Definition same_kind (a b : form) : bool := Nat.eqb (f_class b) (f_class a) && Nat.eqb (f_mesh b) (f_mesh a) && Nat.eqb (f_space b) (f_space a).
Definition rename (o : opts) (n : string) : opts := mkOpts (o_hybrid o) (o_orient o) (o_numbering o) n.
Definition both_at (op : R -> R -> R) (la lb : cochains) (e : nat) : option (list R) :=
  match local_at la e, local_at lb e with Some x, Some y => np_op op x y | _, _ => None end.
(* 3D __add__ 99-143, __sub__ 53-97; 2D __add__ 42-87 *)
Definition combine_forms (op : R -> R -> R) (sign : string) (a b : form) : option form :=
  if same_kind a b then
    match f_local a, f_local b with
    | Some la, Some lb =>
        with_local (f_class a) (f_mesh a) (f_space a)
          (rename (f_opts a) (o_name (f_opts a) ++ sign ++ o_name (f_opts b)))
          (loop (both_at op la lb) (els (f_mesh a)))
    | _, _ => None
    end
  else None.
Definition add_cscg := combine_forms Rplus "+".
Definition sub_3d := combine_forms Rminus "-".
(* 2D forms define no __sub__ *)
Definition sub_2d (a b : form) : option form := None.
(* 3D __neg__ 49-51; 2D and tri define none *)
Definition neg (a : form) : option form := None.
(* other of other * form: an int or float with its text, or something else *)
Inductive factor := Number (text : string) (r : R) | NoNumber.
Definition scaled (r : R) (la : cochains) (e : nat) : option (list R) := option_map (map (Rmult r)) (local_at la e).
(* 3D __rmul__ 146-181 *)
Definition rmul_3d (k : factor) (a : form) : option form :=
  match k with
  | NoNumber => None
  | Number t r =>
      match f_local a with
      | None => None
      | Some la => with_local (f_class a) (f_mesh a) (f_space a) (rename (f_opts a) (t ++ o_name (f_opts a))) (loop (scaled r la) (els (f_mesh a)))
      end
  end.
(* 2D __rmul__ 89-124; a form without a cochain fails at the first element *)
Definition rmul_2d (k : factor) (a : form) : option form :=
  match k with
  | NoNumber => None
  | Number t r =>
      with_local (f_class a) (f_mesh a) (f_space a) (rename (f_opts a) (t ++ "*" ++ o_name (f_opts a)))
        (loop (fun e => match f_local a with Some la => scaled r la e | None => None end) (els (f_mesh a)))
  end.
(* tri: shadow has the default options of the class, hybrid=False, and the
   gathering of self; __add__ and __sub__ *)
Definition shadow_opts (o : opts) : opts := mkOpts false (o_orient o) (o_numbering o) ("shadow-of-" ++ o_name o).
Definition combine_tri (op : R -> R -> R) (a b : form) : option form :=
  if same_kind a b then
    match loop (fun e => match f_local a, f_local b with Some la, Some lb => both_at op la lb e | _, _ => None end) (els (f_mesh a)) with
    | Some d => option_map (fun d' => mkForm (f_class a) (f_mesh a) (f_space a) (shadow_opts (f_opts a)) (Some d'))
                           (set_local_tri (els (f_mesh a)) (nbasis (f_class a) (f_space a)) d)
    | None => None
    end
  else None.
Definition add_tri := combine_tri Rplus.
Definition sub_tri := combine_tri Rminus.
End Arith.
