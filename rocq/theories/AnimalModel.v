(* AnimalModel.v: the predators and prey of the demonstrations.
   Transcribes share/ulam/demos/PredatorPrey/Animal.ulam:12-45 and Plant.ulam:11-17.
   Simplifications: the sites 0 to 4 of the event window are modelled, all live, with the element itself at site 0; which neighbours they
   are is left to the symmetry (EXTERNAL). ++ and -= on Unsigned(7) stay within 0 and 127 (C53). *)
From Coq Require Import List NArith Bool.
Import ListNotations.
Open Scope N_scope.

Inductive atom := AEmpty | ARes | APlant | AAnimal (hunger : N) | AOther (kind : N).
(* site 0, site 1, sites 2 to 4 *)
Record window := mkW { w0 : atom; w1 : atom; w2 : atom; w3 : atom; w4 : atom }.
Definition isEmpty (a : atom) : bool := match a with AEmpty => true | _ => false end.
Definition isPlant (a : atom) : bool := match a with APlant => true | _ => false end.
Definition isRes (a : atom) : bool := match a with ARes => true | _ => false end.

(* Hunger.maxof, Animal.ulam:13 *)
Definition maxHunger : N := 127.
(* ++ and -= of that type *)
Definition incr (h : N) : N := N.min maxHunger (h + 1).
Definition less (h e : N) : N := h - e.

(* Animal.ulam:24-44 *)
Definition animalBehave (energy : N) (h : N) (w : window) : window :=
  let h := incr h in
  if h =? maxHunger then
    let r a := if isEmpty a then ARes else a in
    mkW ARes (r (w1 w)) (r (w2 w)) (r (w3 w)) (r (w4 w))
  else if isPlant (w1 w) then
    let h := less h energy in
    if h =? 0 then
      let h := (maxHunger - 0) / 2 in
      mkW (AAnimal h) (AAnimal h) (w2 w) (w3 w) (w4 w)
    else mkW AEmpty (AAnimal h) (w2 w) (w3 w) (w4 w)
  else if isEmpty (w1 w) then mkW AEmpty (AAnimal h) (w2 w) (w3 w) (w4 w)
  else mkW (AAnimal h) (w1 w) (w2 w) (w3 w) (w4 w).

(* Plant.ulam:13-16 *)
Definition plantBehave (w : window) : window := if isRes (w1 w) then mkW (w0 w) (w0 w) (w2 w) (w3 w) (w4 w) else w.

(* one animal through a row of events: what is next to it each time; its hunger, None once it is dead; stops where it breeds *)
Inductive fate := Dead (events : N) | Bred (events : N) | Alive (h : N).
Fixpoint live (energy h : N) (n : N) (next : list atom) : fate :=
  match next with
  | [] => Alive h
  | a :: r =>
    let w := animalBehave energy h (mkW (AAnimal h) a AEmpty AEmpty AEmpty) in
    match w0 w, w1 w with
    | AAnimal _, AAnimal _ => if isPlant a then Bred (n + 1) else match w0 w with AAnimal h' => live energy h' (n + 1) r | _ => Dead (n + 1) end
    | AAnimal h', _ => live energy h' (n + 1) r
    | _, AAnimal h' => if isPlant a || isEmpty a then live energy h' (n + 1) r else Dead (n + 1)
    | _, _ => Dead (n + 1)
    end
  end.
