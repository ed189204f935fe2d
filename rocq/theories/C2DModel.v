(* C2DModel.v: the points of the standard library.
   Transcribes share/ulam/stdlib/C2D.inc:1-301, function by function, in the numbers of StdNumModel: the text that C2D.ulam:6 loads
   into C2DT(coordBits), whose Coord is Int(coordBits), and C2D.ulam:13 into C2D, whose Coord is Int(16).
   Simplifications: an object is the pair of the numbers in its data members x and y; a Self parameter is a copy (so that an
   assignment to it changes nothing outside); the operators that assign (C2D.inc:32-52, 93, 108) store the result of the operator
   that they name and are left out.  The literals 0, 1, 4, -4, ... reach Int parameters unchanged (C52).
   coordBits is from 1 to 32: a wider Coord may not be given to an Int parameter without a cast, so that C2D.inc:68 does not compile.
   EXTERNAL: the negation of an Int(n) is the number with the other sign, brought into the range of Int(n). *)
From Coq Require Import List NArith ZArith Bool.
From Verif Require Import Base UTypeModel AtomModel PrimModel ArithModel StdNumModel.
Import ListNotations.
Open Scope Z_scope.

Record point := mkP { px : Z; py : Z }.

(* -x: NodeUnaryOpMinus.cpp:36-58 *)
Definition neg (x : num) : option num := do t <- minusType (tyOf x); Some (mkNum (ty_enum t) (ty_bits t) (clamp (ty_enum t) (ty_bits t) (- n_v x))).

Section C2D.
Variable coordBits : Z.

(* C2D.ulam:4, 11 *)
Definition Crd (v : Z) : num := I coordBits v.
Definition toCoord (x : num) : Z := n_v (to EInt coordBits x).
Definition toInt (x : num) : num := to EInt 32 x.
Definition toUnsigned (x : num) : Z := n_v (to EUnsigned 32 x).
(* C2D.inc:18-21 *)
Definition set (ax ay : num) : point := mkP (toCoord ax) (toCoord ay).
(* C2D.inc:64-69 *)
Definition make (x y : num) : point := set (toInt x) (toInt y).
Definition lit (x y : Z) : point := make (I 32 x) (I 32 y).
(* C2D.inc:58-59, 61-62 *)
Definition getX (p : point) : Z := n_v (toInt (Crd (px p))).
Definition getY (p : point) : Z := n_v (toInt (Crd (py p))).
Definition setX (p : point) (ax : Z) : point := mkP (toCoord (I 32 ax)) (py p).
Definition setY (p : point) (ay : Z) : point := mkP (px p) (toCoord (I 32 ay)).
(* C2D.inc:71-81 *)
Definition equals (self other : point) : bool := (px self =? px other) && (py self =? py other).
(* C2D.inc:83-91 *)
Definition pmax (self other : point) : point :=
  mkP (if px other <? px self then px self else px other) (if py other <? py self then py self else py other).
(* C2D.inc:98-106 *)
Definition pmin (self other : point) : point :=
  mkP (if px other >? px self then px self else px other) (if py other >? py self then py self else py other).
(* C2D.inc:54-56 *)
Definition pclamp (self below above : point) : point := pmin (pmax self below) above.
(* C2D.inc:117, 123 *)
Definition minc (p : point) : Z := n_v (toInt (Crd (if px p <? py p then px p else py p))).
Definition maxc (p : point) : Z := n_v (toInt (Crd (if px p >? py p then px p else py p))).
(* C2D.inc:131-139 *)
Definition contains (self other : point) : bool :=
  if (getX other <? 0) || (getX other >=? getX self) then false
  else if (getY other <? 0) || (getY other >=? getY self) then false
  else true.
(* C2D.inc:141-143 *)
Definition dot (self other : point) : option Z :=
  do a <- binop Multiply (Crd (px self)) (Crd (px other));
  do b <- binop Multiply (Crd (py self)) (Crd (py other));
  do s <- binop Add a b; Some (n_v (toInt s)).
(* C2D.inc:152-154, 160-162, 168-174, 180-186: make((Coord) (x op other.x), (Coord) (y op other.y)) *)
Definition pointwise (op : arithop) (self other : point) : option point :=
  do a <- binop op (Crd (px self)) (Crd (px other));
  do b <- binop op (Crd (py self)) (Crd (py other));
  Some (make (Crd (toCoord a)) (Crd (toCoord b))).
(* C2D.inc:156-158, 164-166, 176-178, 188-190 *)
Definition byScalar (op : arithop) (self : point) (scalar : Z) : option point :=
  do a <- binop op (Crd (px self)) (Crd scalar);
  do b <- binop op (Crd (py self)) (Crd scalar);
  Some (make (Crd (toCoord a)) (Crd (toCoord b))).
(* C2D.inc:192-198 *)
Definition negate (self : point) : option point :=
  do a <- neg (toInt (Crd (px self)));
  do b <- neg (toInt (Crd (py self)));
  Some (make (Crd (toCoord a)) (Crd (toCoord b))).
(* C2D.inc:207-216 *)
Definition neighbor (d : Z) : point :=
  if d =? 0 then lit 0 1
  else if d =? 1 then lit 1 1
  else if d =? 2 then lit 1 0
  else if d =? 3 then lit 1 (-1)
  else if d =? 4 then lit 0 (-1)
  else if d =? 5 then lit (-1) (-1)
  else if d =? 6 then lit (-1) 0
  else lit (-1) 1.
(* C2D.inc:221-230 *)
Definition corner (d : Z) : point :=
  if d =? 0 then lit 0 4
  else if d =? 1 then lit 2 2
  else if d =? 2 then lit 4 0
  else if d =? 3 then lit 2 (-2)
  else if d =? 4 then lit 0 (-4)
  else if d =? 5 then lit (-2) (-2)
  else if d =? 6 then lit (-4) 0
  else lit (-2) 2.
(* C2D.inc:237-239 *)
Definition isOrigin (p : point) : bool := (px p =? 0) && (py p =? 0).
(* C2D.inc:241-249 *)
Definition absc (c : Z) : option Z := if c <? 0 then do a <- neg (toInt (Crd c)); Some (toCoord a) else Some c.
Definition abs (of : point) : option point := do a <- absc (px of); do b <- absc (py of); Some (mkP a b).
(* C2D.inc:256-260 *)
Definition diffc (a b : Z) : option Z :=
  do d <- (if a >=? b then binop Subtract (Crd a) (Crd b) else binop Subtract (Crd b) (Crd a)); Some (toCoord d).
Definition absDiff (a b : point) : option point := do dx <- diffc (px a) (px b); do dy <- diffc (py a) (py b); Some (mkP dx dy).
(* C2D.inc:262-265 *)
Definition area (self : point) : option Z := do a <- abs self; do m <- binop Multiply (Crd (px a)) (Crd (py a)); Some (toUnsigned m).
(* C2D.inc:267-270 *)
Definition manhattanDistance (self other : point) : option Z :=
  do a <- absDiff self other; do s <- binop Add (Crd (px a)) (Crd (py a)); Some (toUnsigned s).
(* C2D.inc:232-235; the data members of origin have the initial value 0 (C2D.inc:5-6) *)
Definition length (self : point) : option Z := manhattanDistance (mkP 0 0) self.
(* C2D.inc:283-285 *)
Definition euclideanSquaredLength (self : point) : option Z := do d <- dot self self; Some (toUnsigned (I 32 d)).
(* C2D.inc:275-278 *)
Definition euclideanSquaredDistance (self other : point) : option Z := do d <- pointwise Subtract self other; euclideanSquaredLength d.
(* C2D.inc:287-299 *)
Definition takey (self fromother : point) : point := mkP (px self) (py fromother).
Definition takex (self fromother : point) : point := mkP (px fromother) (py self).
Definition take (self fromx fromy : point) : point := takey (takex self fromx) fromy.
End C2D.
