(** Model of global cochains: objects/CSCG/base/forms/standard/cochain/main.py (globe, its setter, and the region-wise grouping used when
    saving and reading forms), tools/miLinearAlgebra/dataStructures/vectors/distributed/{main,whether}.py,
    vectors/locallyFull/{main,do}.py. Exact rational numbers instead of floats. Data of all cores are lists by rank; exceptions and failed
    assertions are None. *)
From Coq Require Import String DecimalString List Arith ZArith QArith Qcanon Bool.
From Verif Require Import Prelude AssembleModel MeshMapModel TraceModel SpacingModel GatherModel.
Import ListNotations.
Local Open Scope nat_scope.
Local Open Scope list_scope.

Definition q0 : Qc := Q2Qc 0.
Definition is0 (x : Qc) : bool := if Qc_eq_dec x q0 then true else false.
(** cochain.local of one core: the local cochains of its elements *)
Definition lcoch := list (nat * list Qc).
(** a lil or csc vector: its entries *)
Definition row := nat -> Qc.
Definition put1 (f : row) (dx : nat * Qc) : row := fun d => if d =? fst dx then snd dx else f d.
(** f[idx] = x, one after the other *)
Definition put (f : row) (idx : list nat) (x : list Qc) : row := fold_left put1 (combine idx x) f.
(** a csc vector (n, 1): indices and data. Writing 0 to a lil matrix stores nothing; csr_matrix(array) stores no zeros *)
Definition part := list (nat * Qc).
Definition stored (K : nat) (f : row) : part := filter (fun x => negb (is0 (snd x))) (map (fun d => (d, f d)) (seq 0 K)).
(** toarray *)
Definition entry_of (p : part) (d : nat) : Qc := match lookup Nat.eqb d p with Some x => x | None => q0 end.

(** globe, lines 118-124: one element; the local cochains have numOfBasis entries by the setter of [local] *)
Definition globe_one (K : nat) (loc : lcoch) (st : option row) (ev : nat * list nat) : option row :=
  match st, lookup Nat.eqb (fst ev) loc with
  | Some f, Some c => if (length c =? length (snd ev)) && forallb (fun d => d <? K) (snd ev) then Some (put f (snd ev) c) else None
  | _, _ => None
  end.
Definition globe_core (K : nat) (gm : LocalGM) (loc : lcoch) : option row := fold_left (globe_one K loc) gm (Some (fun _ => q0)).
(** DistributedVector(V) (distributed/main.py:60-78): no index in two cores *)
Definition DistributedVector (K : nat) (ps : list part) : option (list part) :=
  if forallb (fun d => length (filter (fun p => mem d (map fst p)) ps) <=? 1) (seq 0 K) then Some ps else None.
(** lines 126-152; [whole]: hybrid, or a volume form *)
Definition measure (ps : list part) (d : nat) : nat := let n := length (filter (fun p => mem d (map fst p)) ps) in if n =? 0 then 1 else n.
Definition qnat (n : nat) : Qc := Q2Qc (inject_Z (Z.of_nat n)).
Definition average (ps : list part) (d : nat) : Qc := Qcdiv (qsum (map (fun p => entry_of p d) ps)) (qnat (measure ps d)).
Definition master_dominating (ps : list part) : bool := forallb (fun p => length p =? 0) (tl ps).
Definition globe (whole : bool) (gms : GMat) (locs : list lcoch) : option (list part) :=
  match global_num_dofs gms with
  | None => None
  | Some K =>
      match all_some (map (fun gl => globe_core K (fst gl) (snd gl)) (combine gms locs)) with
      | None => None
      | Some rows =>
          let ps := map (stored K) rows in
          if whole then DistributedVector K ps
          else match DistributedVector K (match ps with [] => [] | _ :: l => stored K (average ps) :: map (fun _ => []) l end) with
               | Some v => if master_dominating v then Some v else None
               | None => None
               end
      end
  end.
(** the setter, lines 154-203, for a DistributedVector of n entries. [junk]: the content of np.empty *)
Definition gathered_V (junk : row) (ps : list part) : row :=
  if master_dominating ps then entry_of (hd [] ps) else fold_left (fun f p => put f (map fst p) (map snd p)) ps junk.
(** the slice of the vector in the local range, as a csc vector *)
Definition sent (VV : row) (lr : option (nat * nat)) (d : nat) : Qc :=
  match lr with Some (a, b) => if (a <=? d) && (d <? b) then VV d else q0 | None => q0 end.
Definition set_globe (junk : row) (gms : GMat) (n : nat) (ps : list part) : option (list lcoch) :=
  match global_num_dofs gms with
  | Some K => if n =? K then
      Some (map (fun r => map (fun ev => (fst ev, map (sent (gathered_V junk ps) (local_range gms r)) (snd ev))) (gm_local gms r)) (seq 0 (length gms))) else None
  | None => None
  end.
(** lines 193-200: for a LocallyFullVector *)
Definition set_full (gms : GMat) (V : list Qc) : option (list lcoch) :=
  all_some (map (fun gm => all_some (map (fun ev => option_map (pair (fst ev)) (all_some (map (nth_error V) (snd ev)))) gm)) gms).

(** a form: hybrid or volume form, its gathering matrix, its local cochains if it has any *)
Record form := mkForm { f_whole : bool; f_gm : GMat; f_local : option (list lcoch) }.
(** LocallyFullVector(V) for a DistributedVector or GlobalVector (locallyFull/main.py:74-80): the sum of the parts *)
Definition full_of (K : nat) (ps : list part) : list Qc := map (fun d => qsum (map (fun p => entry_of p d) ps)) (seq 0 K).
(** LocallyFullVector(forms), chain_method silly (lines 40-50) *)
Definition full_of_form (f : form) : option (list Qc) :=
  match global_num_dofs (f_gm f) with
  | Some K => match f_local f with
              | Some locs => option_map (full_of K) (globe (f_whole f) (f_gm f) locs)
              | None => Some (repeat q0 K)
              end
  | None => None
  end.
Definition full_of_forms (fs : list form) : option (list Qc) := option_map (@concat Qc) (all_some (map full_of_form fs)).
(** chain_method sequent (lines 52-68): the concatenated local vectors, assembled; [cgm r e] is the chained gathering vector. Forms without
    cochains give empty local vectors *)
Definition local_concat (fs : list form) (r e : nat) : option (list Qc) :=
  option_map (@concat Qc) (all_some (map (fun f => match f_local f with
    | Some locs => lookup Nat.eqb e (nth r locs [])
    | None => option_map (fun v => repeat q0 (length v)) (gv_of (f_gm f) r e) end) fs)).
Definition assembled (K : nat) (dat : list (list nat * list Qc)) : list Qc :=
  map (fun d => qsum (map snd (filter (fun x => fst x =? d) (flat_map (fun vx => combine (fst vx) (snd vx)) dat)))) (seq 0 K).
Definition full_of_forms_sequent (SIZE : nat) (fs : list form) : option (list Qc) :=
  let gms := map f_gm fs in
  match CGM_global_num_dofs SIZE gms,
        all_some (flat_map (fun r => map (fun e => match CGM_getitem SIZE gms Sequent r e, local_concat fs r e with
                                                   | Some v, Some x => Some (v, x) | _, _ => None end) (elements (nth 0 gms []) r)) (seq 0 SIZE)) with
  | Some K, Some dat => Some (assembled K dat)
  | _, _ => None
  end.
(** distributed_to (locallyFull/do.py:12-50), silly; [num] is form.num.global_dofs. The local cochains of the forms (None: no form) *)
Definition slice_of (V : list Qc) (a n : nat) : list Qc := firstn n (skipn a V).
Fixpoint distribute (V : list Qc) (skip i : nat) (gs : list (option GMat)) : option (list (option (list lcoch))) :=
  match gs with
  | [] => Some []
  | None :: gs' => option_map (cons None) (distribute V skip (i + skip) gs')
  | Some g :: gs' =>
      match global_num_dofs g with
      | Some K => match set_full g (slice_of V i K), distribute V skip (i + K) gs' with
                  | Some l, Some ls => Some (Some l :: ls)
                  | _, _ => None
                  end
      | None => None
      end
  end.
Definition count_none (gs : list (option GMat)) : nat := length (filter (fun g => match g with None => true | _ => false end) gs).
Definition distributed_to (V : list Qc) (gs : list (option GMat)) : option (list (option (list lcoch))) :=
  match count_none gs with
  | 0 => distribute V 0 0 gs
  | 1 => match all_some (map (fun g => match g with None => Some 0 | Some g => global_num_dofs g end) gs) with
         | Some ns => if length V <=? sum ns then None else distribute V (length V - sum ns) 0 gs
         | None => None
         end
  | _ => None
  end.
(** with a chained gathering matrix (lines 65-113): V[cgm[e]], cut into pieces of num.basis entries. [cgm r e]; [nbs]: num.basis *)
Fixpoint cut (x : list Qc) (nbs : list nat) : list (list Qc) :=
  match nbs with [] => [] | n :: nbs' => firstn n x :: cut (skipn n x) nbs' end.
Definition distributed_chain (V : list Qc) (cgm : nat -> nat -> option GV) (els : list (list nat)) (nbs : list nat) : option (list (list lcoch)) :=
  match all_some (map (fun res => all_some (map (fun e => match cgm (fst res) e with
          | Some v => option_map (pair e) (all_some (map (nth_error V) v)) | None => None end) (snd res))) (combine (seq 0 (length els)) els)) with
  | Some alls => Some (map (fun j => map (map (fun ex => (fst ex, nth j (cut (snd ex) nbs) []))) alls) (seq 0 (length nbs)))
  | None => None
  end.

(** * cochains grouped by region and local indices, lines 66-116 *)
Section RegionWise.
  (** names of regions *)
  Context (rname : nat -> string).
  (** str of a tuple of two or more integers *)
  Definition show (l : list nat) : string := String.append "("%string (String.append (String.concat ", "%string (map (fun n => NilEmpty.string_of_uint (Nat.to_uint n)) l)) ")"%string).
  Definition rw_key (x : nat * list nat) : string := String.append (rname (fst x)) (String.append "=|="%string (show (snd x))).
  (** ___DO_gather_local_to_master___, lines 56-64: later cores overwrite *)
  Definition upd_all {K V} (keqb : K -> K -> bool) (d new : list (K * V)) : list (K * V) :=
    fold_left (fun d kv => dset keqb d (fst kv) (snd kv)) new d.
  (** lines 66-97, with N elements; [find] is mesh.do.find.region_name_and_local_indices_of_element *)
  Definition group (find : nat -> option (nat * list nat)) (N : nat) (locs : list lcoch) : option (list (string * list Qc)) :=
    match all_some (map (fun loc : lcoch => all_some (map (fun ev => option_map (fun x => (fst ev, rw_key x)) (find (fst ev))) loc)) locs) with
    | None => None
    | Some rids =>
        let LOCAL := fold_left (upd_all Nat.eqb) locs [] in let RID := fold_left (upd_all Nat.eqb) rids [] in
        fold_left (fun st i => match st, lookup Nat.eqb i LOCAL, lookup Nat.eqb i RID with
                               | Some d, Some c, Some k => Some (dset String.eqb d k c) | _, _, _ => None end) (seq 0 N) (Some [])
    end.
  (** lines 99-116: the local cochains of a core with the elements els *)
  Definition ungroup (find : nat -> option (nat * list nat)) (els : list nat) (rw : list (string * list Qc)) : option lcoch :=
    all_some (map (fun i => match find i with Some x => option_map (pair i) (lookup String.eqb (rw_key x) rw) | None => None end) els).
End RegionWise.
