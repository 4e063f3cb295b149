(* What coordinate transformations have to be. *)
From Coq Require Import Reals List.
From Verif Require Import TfiModel TfiSpec CtModel.
Import ListNotations.
Open Scope R_scope.

Definition ent (m : mat3) (i j : coord) : R := get (mrow m i) j.
Definition csum (f : coord -> R) : R := f cX + f cY + f cZ.
Definition delta (i j : coord) : R :=
  match i, j with cX, cX | cY, cY | cZ, cZ => 1 | _, _ => 0 end.
(* a b = 1 *)
Definition right_inverse (a b : mat3) : Prop :=
  forall i j, csum (fun k => ent a i k * ent b k j) = delta i j.
Definition inverse (a b : mat3) : Prop := right_inverse a b /\ right_inverse b a.
(* g = aT a *)
Definition gram_of (a g : mat3) : Prop := forall i j, ent g i j = csum (fun k => ent a k i * ent a k j).

(* vectors *)
Definition vec := (R * R * R)%type.
Definition dot (u v : vec) : R := csum (fun c => get u c * get v c).
Definition cross (u v : vec) : vec :=
  match u, v with
  | (u0, u1, u2), (v0, v1, v2) => (u1 * v2 - u2 * v1, u2 * v0 - u0 * v2, u0 * v1 - u1 * v0)
  end.
Definition col (m : mat3) (j : coord) : vec := (ent m cX j, ent m cY j, ent m cZ j).
(* of a side: the axis across it and whether it is the upper one, the axes of
   the two coordinates of a point of the side *)
Definition across (s : tside) : coord := match s with tN | tS => cX | tW | tE => cY | tB | tF => cZ end.
Definition upper (s : tside) : bool := match s with tS | tE | tF => true | _ => false end.
Definition first (s : tside) : coord := match s with tN | tS => cY | _ => cX end.
Definition second (s : tside) : coord := match s with tN | tS | tW | tE => cZ | _ => cY end.
Definition opposite (s : tside) : tside :=
  match s with tN => tS | tS => tN | tW => tE | tE => tW | tB => tF | tF => tB end.
(* the derivatives of the map of a side by its first and second coordinate *)
Definition side_tangents (f : coord -> R -> R -> R) (a b : R) (u v : vec) : Prop :=
  forall c, derivable_pt_lim (fun x => f c x b) a (get u c) /\
            derivable_pt_lim (fun x => f c a x) b (get v c).
(* pointing away from the element: along the derivative across the side for an
   upper side, against it for a lower one *)
Definition points_out (n : vec) (J : mat3) (s : tside) : Prop :=
  if upper s then 0 < dot n (col J (across s)) else dot n (col J (across s)) < 0.

(* two by two *)
Definition inverse2 (a b : mat22) : Prop :=
  match a, b with
  | ((a00, a01), (a10, a11)), ((b00, b01), (b10, b11)) =>
      a00 * b00 + a01 * b10 = 1 /\ a00 * b01 + a01 * b11 = 0 /\
      a10 * b00 + a11 * b10 = 0 /\ a10 * b01 + a11 * b11 = 1
  end.
(* two elements beside each other: e' behind e along the axis k *)
Definition behind (e e' : Elem) (k : coord) : Prop :=
  forall c, get (e_o e') c = get (e_o e) c + (if match c, k with cX, cX | cY, cY | cZ, cZ => true | _, _ => false end then get (e_d e) c else 0) /\
            (c <> k -> get (e_d e') c = get (e_d e) c).
(* the indices of an element and of the next one along an axis *)
Definition next_index (c : coord) (a b : nat * nat * nat) : Prop :=
  match a, b with
  | (i, j, k), (i', j', k') =>
      match c with
      | cX => i' = S i /\ j' = j /\ k' = k
      | cY => i' = i /\ j' = S j /\ k' = k
      | cZ => i' = i /\ j' = j /\ k' = S k
      end
  end.
(* the direction across a side is orthogonal to the side *)
Definition ortho (J : mat3) (s : tside) : Prop :=
  dot (col J (across s)) (col J (first s)) = 0 /\ dot (col J (across s)) (col J (second s)) = 0.
