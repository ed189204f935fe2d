(* MDistModel.v: angles and square roots in the standard library.
   Transcribes share/ulam/stdlib/MDist.ulam:12-52 (cSiteNumsToAngleArray), 54-55 (cUnsigned6To32TimesSqrt) and 110-130 (acuteAngle, angleCW, sqrt32).
   The rows are the texts of the literals, as they stand in the file; what they mean is C55's.
   Simplifications: Index is Unsigned(6), so site numbers are 0 to 63 here; a failing subscript of the array or of a string is None; the
   coordinates of a site come from a native function, which calls a library that is not in the repository: a parameter here. No operation can
   saturate: the coordinates of sites are -4 to 4. *)
From Coq Require Import String List NArith ZArith Bool.
From Verif Require Import Base.
Import ListNotations.
Open Scope Z_scope.

(* MDist.ulam:11-52; the array has 40 items, 39 are written *)
Definition angle_literals : list text := map txt [
  "\132";
  "\132\264";
  "\264\132\132";
  "\055\055\207\207";
  "\055\207\055\207\132";
  "\207\055\207\055\132\263";
  "\207\207\055\055\263\132\132";
  "\000\132\132\264\055\055\207\207";
  "\132\000\264\132\055\207\055\207\132";
  "\132\264\000\132\207\055\207\055\132\264";
  "\264\132\132\000\207\207\055\055\264\132\132";
  "\032\077\164\231\022\107\154\241\032\077\164\231";
  "\032\164\077\231\107\022\241\154\032\164\077\231\065";
  "\077\032\231\164\022\154\107\241\077\032\231\164\044\132";
  "\077\231\032\164\154\022\241\107\077\231\032\164\132\044\176";
  "\164\032\231\077\107\241\022\154\164\032\231\077\132\217\065\263";
  "\164\231\032\077\241\107\154\022\164\231\032\077\217\132\263\065\176";
  "\231\077\164\032\154\241\022\107\231\077\164\032\176\263\132\217\044\132";
  "\231\164\077\032\241\154\107\022\231\164\077\032\263\176\217\132\132\044\065";
  "\000\132\132\264\055\055\207\207\000\132\132\264\032\032\077\077\164\164\231\231";
  "\132\000\264\132\055\207\055\207\132\000\264\132\077\164\032\231\032\231\077\164\132";
  "\132\264\000\132\207\055\207\055\132\264\000\132\164\077\231\032\231\032\164\077\132\264";
  "\264\132\132\000\207\207\055\055\264\132\132\000\231\231\164\164\077\077\032\032\264\132\132";
  "\055\055\207\207\000\132\132\263\055\055\207\207\022\107\022\154\107\241\154\241\055\055\207\207";
  "\055\207\055\207\132\000\263\132\055\207\055\207\107\022\154\022\241\107\241\154\055\207\055\207\132";
  "\207\055\207\055\132\263\000\132\207\055\207\055\154\241\107\241\022\154\022\107\207\055\207\055\132\263";
  "\207\207\055\055\263\132\132\000\207\207\055\055\241\154\241\107\154\022\107\022\207\207\055\055\263\132\132";
  "\022\107\154\241\032\077\164\231\022\107\154\241\010\055\055\121\142\207\207\253\022\107\154\241\032\077\164\231";
  "\022\154\107\241\077\032\231\164\022\154\107\241\055\010\121\055\207\142\253\207\022\154\107\241\077\032\231\164\044";
  "\107\022\241\154\032\164\077\231\107\022\241\154\055\142\010\207\055\253\121\207\107\022\241\154\032\164\077\231\065\132";
  "\107\241\022\154\164\032\231\077\107\241\022\154\142\055\207\010\253\055\207\121\107\241\022\154\164\032\231\077\132\065\217";
  "\154\022\241\107\077\231\032\164\154\022\241\107\121\207\055\253\010\207\055\142\154\022\241\107\077\231\032\164\132\176\044\263";
  "\154\241\022\107\231\077\164\032\154\241\022\107\207\121\253\055\207\010\142\055\154\241\022\107\231\077\164\032\176\132\263\044\217";
  "\241\107\154\022\164\231\032\077\241\107\154\022\207\253\142\207\055\121\010\055\241\107\154\022\164\231\032\077\217\263\132\176\065\132";
  "\241\154\107\022\231\164\077\032\241\154\107\022\253\207\207\142\121\055\055\010\241\154\107\022\231\164\077\032\263\217\176\132\132\065\044";
  "\000\132\132\264\055\055\207\207\000\132\132\264\032\032\077\077\164\164\231\231\000\132\132\264\055\055\207\207\022\022\107\107\154\154\241\241";
  "\132\000\264\132\055\207\055\207\132\000\264\132\077\164\032\231\032\231\077\164\132\000\264\132\055\207\055\207\107\154\022\241\022\241\107\154\132";
  "\132\264\000\132\207\055\207\055\132\264\000\132\164\077\231\032\231\032\164\077\132\264\000\132\207\055\207\055\154\107\241\022\241\022\154\107\132\264";
  "\264\132\132\000\207\207\055\055\264\132\132\000\231\231\164\164\077\077\032\032\264\132\132\000\207\207\055\055\241\241\154\154\107\107\022\022\264\132\132"
]%string.
(* MDist.ulam:54-55 *)
Definition sqrt_literal : text := txt
  "\000\040\055\067\100\107\116\124\132\140\145\152\156\163\167\173\200\203\207\213\217\222\226\231\234\240\243\246\251\254\257\262\265\267\272\275\300\302\305\307\312\314\317\321\324\326\331\333\335\340\342\344\346\350\353\355\357\361\363\365\367\371\373\375"%string.

(* a backslash and three octal digits are one byte *)
Fixpoint octals (s : text) : list Z :=
  match s with
  | _ :: a :: b :: c :: r => ((Z.of_N a - 48) * 64 + (Z.of_N b - 48) * 8 + (Z.of_N c - 48)) :: octals r
  | _ => []
  end.
(* the items that are not written are the last one again (NodeListArrayInitialization, C69) *)
Definition fill {A} (n : nat) (l : list A) (d : A) : list A := l ++ repeat (last l d) (n - length l).
Definition cSiteNumsToAngleArray : list (list Z) := fill 40 (map octals angle_literals) [].
Definition cUnsigned6To32TimesSqrt : list Z := octals sqrt_literal.
Definition item {A} (l : list A) (i : Z) : option A := if i <? 0 then None else nth_error l (Z.to_nat i).

(* MDist.ulam:110-115 *)
Definition acuteAngle (s1 s2 : Z) : option Z :=
  if s1 =? s2 then Some 0
  else
    let '(s1, s2) := if s1 <? s2 then (s2, s1) else (s1, s2) in
    if s2 =? 0 then Some 0
    else match item cSiteNumsToAngleArray (s1 - 2) with Some row => item row (s2 - 1) | None => None end.

(* MDist.ulam:117-124 *)
Definition angleCW (getSiteCoord : Z -> Z * Z) (s1 s2 : Z) : option Z :=
  match acuteAngle s1 s2 with
  | None => None
  | Some acute =>
    let c1 := getSiteCoord s1 in
    let c2 := getSiteCoord s2 in
    let zsign := fst c1 * snd c2 - snd c1 * fst c2 in
    Some (if zsign <? 0 then 360 - acute else acute)
  end.

(* MDist.ulam:128-130 *)
Definition sqrt32 (x : Z) : option Z := item cUnsigned6To32TimesSqrt x.
