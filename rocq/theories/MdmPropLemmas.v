(** Restatements for MdmProps. *)
From Coq Require Import List Arith Bool Permutation.
From Verif Require Import Prelude RingSum MdmModel MdmSpec MdmProofs3.
Import ListNotations.

Lemma derivative_perm K nb (m : mdm K) tv uv w sw known :
  Permutation (cor K m) [tv; uv; w] -> NoDup [tv; uv; w] -> NoDup (map fst known) -> In (w, sw) known ->
  ~ In tv (map fst known) -> ~ In uv (map fst known) ->
  exists M, derivative_contribution_to K nb m tv uv known = Some (Some (tv, uv, M)) /\
    forall e r c, r < nb tv -> c < nb uv ->
      M e r c = mform K nb m e (upd K (upd K (given K known e) tv (unit K r)) uv (unit K c)).
Proof.
  intros P D. apply derivative_ok. split; [exact P|].
  inversion D as [|? ? N1 D1]; subst. inversion D1 as [|? ? N2 D2]; subst. simpl in *. repeat split; intros ->; tauto.
Qed.
