(** Specification for the element sizes. *)
From Coq Require Import QArith Qcanon.

(** the coordinate x is in the interval of origin [fst os] and size [snd os] *)
Definition box_has (os : Qc * Qc) (x : Qc) : Prop := (fst os <= x)%Qc /\ (x < fst os + snd os)%Qc.
