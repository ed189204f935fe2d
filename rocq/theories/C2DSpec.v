(* C2DSpec.v: what is asked of points (C100). *)
From Coq Require Import ZArith.
From Verif Require Import C2DModel.
Open Scope Z_scope.

(* the numbers that a coordinate of w bits can be *)
Definition coord_ok (w z : Z) : Prop := - 2 ^ (w - 1) <= z < 2 ^ (w - 1).
Definition point_ok (w : Z) (p : point) : Prop := coord_ok w (px p) /\ coord_ok w (py p).
(* r is the coordinate of w bits that is closest to z *)
Definition nearest (w z r : Z) : Prop := coord_ok w r /\ forall r', coord_ok w r' -> r' = r \/ Z.abs (z - r) < Z.abs (z - r').
Definition nearest_point (w zx zy : Z) (p : point) : Prop := nearest w zx (px p) /\ nearest w zy (py p).
