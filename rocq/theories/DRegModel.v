(* DRegModel.v: the events of the elements that come with the core, and of three demonstrations.
   Transcribes share/ulam/core/DReg.ulam:13-70, core/Res.ulam:10-16, core/Wall.ulam:10, demos/DLA/DLA.ulam:10-15,
   demos/ForkBombs/ForkBomb.ulam:10-15 and demos/SimpleMotions/FX.ulam:6-17.
   Simplifications: of the event window the two sites the event touches are modelled, both live, site 0 with the element itself; which
   neighbour is site 1 is left to the symmetry (EXTERNAL). An atom is its class and its data; a class derived from DReg, Res or Empty
   counts as that class, as for the operator is. The numbers drawn by random are independent of each other (EXTERNAL), so an event is
   the list of its outcomes each with its probability. *)
From Coq Require Import List NArith ZArith QArith Bool.
From Verif Require Import Base PickModel RandModel.
Import ListNotations.
Open Scope Q_scope.

Inductive atom := AEmpty | ARes (data : N) | ADReg (data : N) | AOther (kind data : N).
(* the operator is, for the three classes *)
Definition isEmptyA (a : atom) : bool := match a with AEmpty => true | _ => false end.
Definition isResA (a : atom) : bool := match a with ARes _ => true | _ => false end.
Definition isDRegA (a : atom) : bool := match a with ADReg _ => true | _ => false end.

(* sites 0 and 1 *)
Definition win : Type := atom * atom.
(* ew[1] = a, EventWindow.ulam:75 *)
Definition put1 (a : atom) (w : win) : win := (fst w, a).
(* ew.swap(0,1), EventWindow.ulam:102 *)
Definition swap01 (w : win) : win := (snd w, fst w).

(* ---- outcomes with probabilities ---- *)
Definition dist (A : Type) : Type := list (A * Q).
Definition sure {A} (a : A) : dist A := [(a, 1)].
(* Random.ulam:41: the equally likely results of oneIn *)
Definition toss (odds : Z) : dist bool := let l := oneIn odds in map (fun b => (b, / inject_Z (Z.of_nat (List.length l)))) l.
Definition next {A B} (d : dist A) (f : A -> dist B) : dist B := flat_map (fun ap => map (fun bq => (fst bq, snd ap * snd bq)) (f (fst ap))) d.

(* ---- DReg ---- *)
(* DReg.ulam:17-49: pDREG_CREATE, pRES_CREATE, pDREG_DESTROY, pANY_DESTROY *)
Record params := { pDC : Z; pRC : Z; pDD : Z; pAD : Z }.
(* DReg.ulam:23,32,40,49 *)
Definition defaults : params := {| pDC := 1000; pRC := 200; pDD := 10; pAD := 100 |}.
(* DReg.ulam:51-69; a || b and a && b ask for the second operand only when it is needed *)
Definition dregBehave (p : params) (w : win) : dist win :=
  let self := fst w in
  let other := snd w in
  if isEmptyA other then
    next (toss (pDC p)) (fun c =>
      if c then sure (swap01 (put1 self w))
      else next (toss (pRC p)) (fun r => sure (swap01 (if r then put1 (ARes 0) w else w))))
  else
    next (if isDRegA other then toss (pDD p) else sure false) (fun d1 =>
      next (if d1 then sure true else toss (pAD p)) (fun d =>
        sure (if d then swap01 (put1 AEmpty w) else w))).

(* ---- Res, Wall, DLA, ForkBomb ---- *)
(* Res.ulam:12-15 *)
Definition resBehave (w : win) : win := if isEmptyA (snd w) then swap01 w else w.
(* Wall.ulam:10 *)
Definition wallBehave (w : win) : win := w.
(* DLA.ulam:12-14 *)
Definition dlaBehave (w : win) : win := if isResA (snd w) then put1 (fst w) w else w.
(* ForkBomb.ulam:12-14 *)
Definition forkBehave (w : win) : win := put1 (fst w) w.

(* ---- FX ---- *)
(* a row of sites; an FX at a site, with its m_flip; EXTERNAL: sites 1 and 4 of the window are the neighbours on either side *)
Definition row : Type := Z -> option atom.
Definition swapR (i j : Z) (r : row) : row := fun k => if Z.eqb k i then r j else if Z.eqb k j then r i else r k.
(* FX.ulam:10-15: the position and the flag after the event, and the row of the other atoms *)
Definition fxBehave (pos : Z) (flip : bool) (r : row) : Z * bool * row :=
  let flip := negb flip in
  let to := if flip then (pos - 1)%Z else (pos + 1)%Z in
  (to, flip, swapR pos to r).
