(* MDistSpec.v: what is asked of angles and square roots (C102). *)
From Coq Require Import List ZArith Bool.
Import ListNotations.
Open Scope Z_scope.

(* the sites of an event window by number (EXTERNAL: the numbering is that of the library) *)
Definition sites : list (Z * Z) :=
  [(0,0); (-1,0); (0,-1); (0,1); (1,0); (-1,-1); (-1,1); (1,-1); (1,1); (-2,0); (0,-2); (0,2); (2,0);
   (-2,-1); (-2,1); (-1,-2); (-1,2); (1,-2); (1,2); (2,-1); (2,1); (-3,0); (0,-3); (0,3); (3,0);
   (-2,-2); (-2,2); (2,-2); (2,2); (-3,-1); (-3,1); (-1,-3); (-1,3); (1,-3); (1,3); (3,-1); (3,1); (-4,0); (0,-4); (0,4); (4,0)].
Definition site (n : Z) : Z * Z := nth (Z.to_nat n) sites (0, 0).
(* nearer sites first: by x and y together, then by the length, then from left to right and down *)
Definition before (p q : Z * Z) : Prop :=
  let d r := Z.abs (fst r) + Z.abs (snd r) in
  let l r := fst r * fst r + snd r * snd r in
  d p < d q \/ (d p = d q /\ (l p < l q \/ (l p = l q /\ (fst p < fst q \/ (fst p = fst q /\ snd p < snd q))))).

Definition dot (a b : Z * Z) : Z := fst a * fst b + snd a * snd b.
Definition cross (a b : Z * Z) : Z := fst a * snd b - snd a * fst b.

(* How many full turns n turns by the angle of u are (u points up or sideways: its angle is at most half a turn).  A point goes from (1, 0), each
   time by that angle; a turn is full whenever it comes from below to the right part of the x axis, or over it. *)
Definition upper (p : Z * Z) : bool := (0 <? snd p) || ((snd p =? 0) && (0 <? fst p)).
Definition turn (p u : Z * Z) : Z * Z := (fst p * fst u - snd p * snd u, fst p * snd u + snd p * fst u).
Fixpoint full_turns (n : nat) (p u : Z * Z) : Z :=
  match n with
  | O => 0
  | S n => let q := turn p u in (if negb (upper p) && upper q then 1 else 0) + full_turns n q u
  end.
(* whole degrees of the angle between a and b: 360 times the angle has as many full turns *)
Definition degrees (a b : Z * Z) : Z := full_turns 360 (1, 0) (dot a b, Z.abs (cross a b)).
(* in opposite directions *)
Definition opposite (a b : Z * Z) : Prop := cross a b = 0 /\ dot a b < 0.
Definition on_axis (a : Z * Z) : Prop := fst a = 0 \/ snd a = 0.
