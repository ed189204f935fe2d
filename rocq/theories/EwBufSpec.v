(* EwBufSpec.v: what a saved and restored event window should be.  Independent of the loops. *)
From Coq Require Import List NArith ZArith Bool.
From Verif Require Import Base EwBufModel.
Open Scope N_scope.

(* the sites at distance at most r from the centre are numbered 0 to 2r(r+1), radii are 0 to 4 *)
Definition last_of (r : N) : N := 2 * r * (r + 1).
Definition numbers_sites (getLastIndex : N -> N) : Prop := forall r, r <= 4 -> getLastIndex r = last_of r.
(* a symmetry takes the site numbers to places, no two to the same *)
Definition apart (place : N -> N -> N) : Prop := forall s i j, i <= 40 -> j <= 40 -> place s i = place s j -> i = j.

(* the atom that the holder of the window sees at a site number *)
Definition seen {A} (place : N -> N -> N) (w : window A) (i : N) : A := w_atom w (place (w_sym w) i).
(* a place of a site within the radius *)
Definition within {A} (place : N -> N -> N) (w : window A) (r x : N) : Prop := exists i, i <= last_of r /\ x = place (w_sym w) i.
(* every site within the radius can be reached *)
Definition reachable {A} (w : window A) (r : N) : Prop := forall i, i <= last_of r -> w_ok w i = true.
