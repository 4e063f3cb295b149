(** Specification of saving and reading. *)
From Coq Require Import String List Arith ZArith Qcanon Bool.
From Verif Require Import Prelude CochainModel SaveModel.
Import ListNotations.
Local Open Scope nat_scope.
Local Open Scope list_scope.

(** parameters of a mesh, of a space *)
Definition is_mesh (d : dict) : Prop := exists ID dom lay edm, d = mesh_dict ID dom lay edm.
Definition is_space (d : dict) : Prop := exists ID inputs ndim, d = space_dict ID inputs ndim.
(** the forms, and the forms with algebraic duals, that can be read *)
Definition form_IDs : list string := ["0-f"; "1-f"; "2-f"; "3-f"; "0-t"; "1-t"; "2-t"; "0-e"]%string.
Definition prime_IDs : list string := ["0-f"; "1-f"; "2-f"; "3-f"; "0-t"; "1-t"; "2-t"]%string.

(** texts tell parameters apart *)
Definition faithful (show : dict -> string) : Prop :=
  (forall d d', is_mesh d -> is_mesh d' -> show d = show d' -> d = d') /\ (forall d d', is_space d -> is_space d' -> show d = show d' -> d = d').
(** what the caches hold has the parameters its tag was made of *)
Definition cache_ok (show : dict -> string) (is : dict -> Prop) (c : option (string * built)) : Prop :=
  match c with Some (t, b) => forall d, is d -> t = show d -> b_par b = d | None => True end.
Definition caches_ok (show : dict -> string) (st : state) : Prop := cache_ok show is_mesh (st_mesh st) /\ cache_ok show is_space (st_space st).

(** the dictionaries of an object which are emptied while it is read, and the keyword arguments *)
Definition addrs (o : object) : list nat := match o with Mesh l | Space l => [l] | Form f | Dual _ f => [f_mp f; f_sp f] end.
Definition kwargs_of (o : object) : list nat := match o with Mesh _ | Space _ => [] | Form f | Dual _ f => [f_kw f] end.
Definition mesh_at (o : object) : option nat := match o with Mesh l => Some l | Space _ => None | Form f | Dual _ f => Some (f_mp f) end.
Definition space_at (o : object) : option nat := match o with Mesh _ => None | Space l => Some l | Form f | Dual _ f => Some (f_sp f) end.
Definition mesh_read (r : robj) : option built := match r with RMesh m => Some m | RForm f | RDual _ _ f => Some (r_mesh f) | _ => None end.
Definition space_read (r : robj) : option built := match r with RSpace m => Some m | RForm f | RDual _ _ f => Some (r_space f) | _ => None end.

Section Spec.
  Variables mesh_ok space_ok : dict -> bool.
  Variables form_ok hybrid : string -> dict -> bool.
  Variable form_name : string -> dict -> string.
  Variable els : dict -> list nat.
  Variable find : dict -> nat -> option (nat * list nat).
  Variable rname : dict -> nat -> string.
  Variable h : heap.

  (** a form that exists: its mesh, its space and itself were built from these parameters, and it has a cochain for all elements *)
  Definition form_exists (f : form) : Prop :=
    is_mesh (h (f_mp f)) /\ mesh_ok (h (f_mp f)) = true /\ is_space (h (f_sp f)) /\ space_ok (h (f_sp f)) = true /\
    ~ In "is_hybrid"%string (map fst (h (f_kw f))) /\ form_ok (f_ID f) (h (f_kw f)) = true /\
    exists c loc, f_rw f = Some c /\ ungroup (rname (h (f_mp f))) (find (h (f_mp f))) (els (h (f_mp f))) c = Some loc.
  Definition exists_in (o : object) : Prop :=
    match o with
    | Mesh l => is_mesh (h l) /\ mesh_ok (h l) = true
    | Space l => is_space (h l) /\ space_ok (h l) = true
    | Form f => In (f_ID f) form_IDs /\ form_exists f
    | Dual _ f => In (f_ID f) prime_IDs /\ form_exists f /\ hybrid (f_ID f) (h (f_kw f)) = true
    end.
  (** the form read is the form saved *)
  Definition same_form (f : form) (r : rform) : Prop :=
    r_ID r = f_ID f /\ b_par (r_mesh r) = h (f_mp f) /\ b_par (r_space r) = h (f_sp f) /\ r_kw r = h (f_kw f) /\
    exists c loc, f_rw f = Some c /\ ungroup (rname (h (f_mp f))) (find (h (f_mp f))) (els (h (f_mp f))) c = Some loc /\ r_local r = Some loc.
  Definition same (o : object) (r : robj) : Prop :=
    match o, r with
    | Mesh l, RMesh m => b_par m = h l
    | Space l, RSpace s => b_par s = h l
    | Form f, RForm r => same_form f r
    | Dual _ f, RDual cls name r => same_form f r /\ name = String.append "AD_" (form_name (f_ID f) (h (f_kw f))) /\
        In (f_ID f, cls) [("0-f", "_3dCSCG_S0_ADF"); ("1-f", "_3dCSCG_S1_ADF"); ("2-f", "_3dCSCG_S2_ADF"); ("3-f", "_3dCSCG_S3_ADF");
                          ("0-t", "_3dCSCG_T0_ADF"); ("1-t", "_3dCSCG_T1_ADF"); ("2-t", "_3dCSCG_T2_ADF")]%string
    | _, _ => False
    end.
  Definition same_if (bo : bool * object) (r : robj) : Prop := if fst bo then same (snd bo) r else r = RNone.
  (** the mesh (the space) of an object *)
  Definition has_mesh (o : object) (d : dict) : Prop := match mesh_at o with Some l => h l = d | None => True end.
  Definition has_space (o : object) (d : dict) : Prop := match space_at o with Some l => h l = d | None => True end.
End Spec.
(** what is read is [m] itself, if it is a mesh at all *)
Definition on_mesh (i : nat) (r : robj) : Prop := match mesh_read r with Some m => b_id m = i | None => True end.
Definition on_space (i : nat) (r : robj) : Prop := match space_read r with Some s => b_id s = i | None => True end.
