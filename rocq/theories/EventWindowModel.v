(* EventWindowModel.v: the evaluator's event window.
   Transcribes src/ulam/UEventWindow.cpp and include/UEventWindow.h but for setSiteElementType and makePtrToSite
   (which need the class table) and the live flag, which the loads and stores do not look at.
   Simplifications: the map is an association list; a failed assert is None. *)
From Coq Require Import String List NArith ZArith Lia Bool.
From Verif Require Import Base BitVec UTypeModel AtomModel.
Import ListNotations.
Open Scope Z_scope.

(* UEventWindow.h:51-52 *)
Definition MAXMANHATTANDIST : Z := 4.
Definition MAXWIDTH : Z := MAXMANHATTANDIST + MAXMANHATTANDIST + 1.

(* conversion to s8 (gcc: modulo 2^8) *)
Definition s8 (z : Z) : Z := (z + 128) mod 256 - 128.

(* UEventWindow.h:56-64; the constructor takes s8 *)
Record coord := mkC { cx : Z; cy : Z }.
Definition Coord (x y : Z) : coord := mkC (s8 x) (s8 y).
Definition coord_eqb (a b : coord) : bool := (cx a =? cx b) && (cy a =? cy b).

(* UEventWindow.h:61: s8 is promoted to int, the int result converted to u32 *)
Definition convertCoordToIndex (c : coord) : Z := u32z ((MAXMANHATTANDIST - cy c) * MAXWIDTH + (MAXMANHATTANDIST - cx c)).

(* UEventWindow.h:62: x is computed in u32, y in int *)
Definition convertIndexToCoord (i : Z) : coord :=
  Coord (u32z (MAXMANHATTANDIST - i mod MAXWIDTH)) (MAXMANHATTANDIST - s32z (i / MAXWIDTH)).

(* std::map<Coord, USite, less_than_coord> (UEventWindow.h:69-80): keys are the same when neither is less *)
Definition less_than_coord (a b : coord) : bool :=
  if cx a <? cx b then true else if cx b <? cx a then false
  else if cy a <? cy b then true else if cy b <? cy a then false else false.
Definition same_key (a b : coord) : bool := negb (less_than_coord a b) && negb (less_than_coord b a).

Definition window := list (coord * uval).

Fixpoint find_site (c : coord) (w : window) : option uval :=
  match w with [] => None | (k, v) :: r => if same_key c k then Some v else find_site c r end.

(* insert adds nothing when the key is there *)
Definition insert_site (c : coord) (v : uval) (w : window) : window :=
  match find_site c w with Some _ => w | None => w ++ [(c, v)] end.

(* USite::init, USite.cpp:19-22: an atom of zeros *)
Definition atomType : utype := prim EAtom 96 (-1).
Definition noutiType : utype := prim ENouti 0 (-1).
Definition emptySite : uval := mkUV atomType 0.

(* the coordinates of one pair of for loops (UEventWindow.cpp:25-59): i from i0, j from j0 *)
Definition zseq (a b : Z) : list Z := map (fun k => a + Z.of_nat k) (seq 0 (Z.to_nat (b - a + 1))).
Definition loops (i0 j0 : Z) (f : Z -> Z -> coord) : list coord :=
  flat_map (fun i => map (f i) (zseq j0 (MAXMANHATTANDIST - i))) (zseq i0 MAXMANHATTANDIST).

Definition all_coords : list coord :=
  loops 0 0 (fun i j => Coord i j) ++ loops 1 0 (fun i j => Coord (- i) j) ++
  loops 0 1 (fun i j => Coord i (- j)) ++ loops 1 1 (fun i j => Coord (- i) (- j)).

(* UEventWindow.cpp:61-69 *)
Fixpoint shouldTotal (k : nat) : Z :=
  match k with O => 1 | S k' => MAXMANHATTANDIST * Z.of_nat k + shouldTotal k' end.

(* UEventWindow.cpp:22-70 *)
Definition init : option window :=
  let count := Z.of_nat (List.length all_coords) in
  if count =? shouldTotal (Z.to_nat MAXMANHATTANDIST)
  then Some (fold_left (fun w c => insert_site c emptySite w) all_coords [])
  else None.

(* UEventWindow.cpp:84-87 *)
Definition isValidSite (c : coord) : bool :=
  (- MAXMANHATTANDIST <=? cx c + cy c) && (cx c + cy c <=? MAXMANHATTANDIST).

(* UEventWindow.cpp:73-82; None: not valid (index is a u32) *)
Definition isValidSiteIndex (index : Z) : option coord :=
  if index <? MAXWIDTH * MAXWIDTH then
    let c := convertIndexToCoord index in if isValidSite c then Some c else None
  else None.

(* UEventWindow.cpp:146-157; UlamValue() when there is no such site *)
Definition loadAtomFromSite (index : Z) (w : window) : option uval :=
  match isValidSiteIndex index with
  | None => None
  | Some c => match find_site c w with Some v => Some v | None => Some (mkUV noutiType 0) end
  end.

Fixpoint put_site (c : coord) (v : uval) (w : window) : window :=
  match w with
  | [] => []
  | (k, v0) :: r => if same_key c k then (k, v) :: r else (k, v0) :: put_site c v r
  end.

(* UEventWindow.cpp:166-177: whether it was stored, and the window *)
Definition storeAtomIntoSite (c : coord) (v : uval) (w : window) : bool * window :=
  match find_site c w with Some _ => (true, put_site c v w) | None => (false, w) end.

(* UEventWindow.cpp:159-164 *)
Definition storeAtIndex (index : Z) (v : uval) (w : window) : option (bool * window) :=
  match isValidSiteIndex index with None => None | Some c => Some (storeAtomIntoSite c v w) end.

(* UEventWindow.cpp:179-210; the case of a site without a type is reached only when there is no such site, and
   then the assert at the end fails *)
Definition assignSite (p : uptr) (ruv : uval) (w : window) : option window :=
  let leftindex := u32z (p_slot p) in
  let finish (o : option (bool * window)) := match o with Some (true, w') => Some w' | _ => None end in
  match p_pack p with
  | UNPACKED => finish (storeAtIndex leftindex ruv w)
  | _ =>
    match loadAtomFromSite leftindex w with
    | None => None
    | Some lval =>
      if etype_eqb (ty_enum (v_ty lval)) ENouti then finish (storeAtIndex leftindex ruv w)
      else match putDataIntoAtom p ruv (v_bits lval) with
           | None => None
           | Some a => finish (storeAtIndex leftindex (mkUV (v_ty lval) a) w)
           end
    end
  end.
