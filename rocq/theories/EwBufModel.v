(* EwBufModel.v: the buffer that keeps an event window, share/ulam/stdlib/EventWindowBuffer.ulam:1-63.
   EXTERNAL, as parameters: getLastIndex (share/tcc/stdlib/Uq_10105MDist10_native.tcc:9-16 calls MDist::GetLastIndex) gives the last site
   number of a radius; aref (Uq_10109211EventWindow10_native.tcc:9-15 calls EventWindow::GetAtomBitStorage) takes a site number to a
   place by the current symmetry, or fails; getBase and setBase (Uq_1010919SiteUtils10_native.tcc:61-85) read and write the base atom.
   Simplifications: atoms are opaque; the log messages (21, 29-31, 48-54) and the member mRadiusSaved (4), which nothing uses, are left
   out; whether aref accepts a site number is the same for the whole of a save or restore. A failing aref or subscript is None. *)
From Coq Require Import List NArith ZArith Bool.
From Verif Require Import Base.
Import ListNotations.
Open Scope N_scope.

Section Buffer.
Variable A : Type.
Variable getLastIndex : N -> N.
Variable place : N -> N -> N.   (* the place of a site number under a symmetry *)

(* the event window: its atoms by place, the base atom, the symmetry, the radius and the site numbers aref accepts *)
Record window := { w_atom : N -> A; w_base : A; w_sym : N; w_radius : N; w_ok : N -> bool }.
(* EventWindowBuffer.ulam:2-9 *)
Record buffer := { mSiteBuffer : N -> A; mBaseBuffer : A; mRadiusStored : N; mEventLayerStored : bool; mBaseLayerStored : bool }.

Definition cMAX_SITES : N := 41.
(* a cast to EWRadius = Unary(4), line 2: saturates *)
Definition EWRadius (n : N) : N := N.min n 4.
(* ++i on SiteNum = Unsigned(6): EventWindow.ulam:24 *)
Definition next (i : N) : N := N.min (i + 1) 63.
Definition update (f : N -> A) (i : N) (a : A) : N -> A := fun j => if j =? i then a else f j.

(* ew[i], read and written *)
Definition load (w : window) (i : N) : option A := if w_ok w i then Some (w_atom w (place (w_sym w) i)) else None.
Definition store (w : window) (i : N) (a : A) : option window :=
  if w_ok w i then Some {| w_atom := update (w_atom w) (place (w_sym w) i) a; w_base := w_base w; w_sym := w_sym w; w_radius := w_radius w; w_ok := w_ok w |}
  else None.

(* lines 34-36; the outer None: no end within the fuel *)
Fixpoint saveLoop (fuel : nat) (w : window) (last i : N) (buf : N -> A) : option (option (N -> A)) :=
  match fuel with
  | O => None
  | S f =>
    if i <=? last then
      match load w i with
      | Some a => if i <? cMAX_SITES then saveLoop f w last (next i) (update buf i a) else Some None
      | None => Some None
      end
    else Some (Some buf)
  end.
(* lines 57-59 *)
Fixpoint restoreLoop (fuel : nat) (w : window) (last i : N) (buf : N -> A) : option (option window) :=
  match fuel with
  | O => None
  | S f =>
    if i <=? last then
      if i <? cMAX_SITES then
        match store w i (buf i) with
        | Some w' => restoreLoop f w' last (next i) buf
        | None => Some None
        end
      else Some None
    else Some (Some w)
  end.

(* what a call comes to: a result, a failed event, or no end *)
Inductive result (T : Type) := Done (x : T) | Fails | Forever.
Arguments Done {T}. Arguments Fails {T}. Arguments Forever {T}.
Definition the_fuel : nat := 100.

(* lines 16-39 *)
Definition save (w : window) (b : buffer) (eventLayer baseLayer : bool) (rad : N) : result buffer :=
  let r := EWRadius rad in
  let base := if baseLayer then w_base w else mBaseBuffer b in
  let mk s := {| mSiteBuffer := s; mBaseBuffer := base; mRadiusStored := r; mEventLayerStored := eventLayer; mBaseLayerStored := baseLayer |} in
  if eventLayer then
    match saveLoop the_fuel w (getLastIndex r) 0 (mSiteBuffer b) with
    | None => Forever
    | Some None => Fails
    | Some (Some s) => Done (mk s)
    end
  else Done (mk (mSiteBuffer b)).
(* lines 11-14 *)
Definition saveAll (w : window) (b : buffer) : result buffer := save w b true true (EWRadius (w_radius w)).
(* lines 41-62 *)
Definition restore (w : window) (b : buffer) : result window :=
  let put w := if mBaseLayerStored b
               then {| w_atom := w_atom w; w_base := mBaseBuffer b; w_sym := w_sym w; w_radius := w_radius w; w_ok := w_ok w |} else w in
  if mEventLayerStored b then
    match restoreLoop the_fuel w (getLastIndex (mRadiusStored b)) 0 (mSiteBuffer b) with
    | None => Forever
    | Some None => Fails
    | Some (Some w') => Done (put w')
    end
  else Done (put w).
(* a new EventWindowBuffer: every member of a transient starts as its type's default, the atoms empty *)
Definition fresh (empty : A) : buffer :=
  {| mSiteBuffer := fun _ => empty; mBaseBuffer := empty; mRadiusStored := 0; mEventLayerStored := false; mBaseLayerStored := false |}.
End Buffer.
Arguments Done {T}. Arguments Fails {T}. Arguments Forever {T}.
Arguments w_atom {A}. Arguments w_base {A}. Arguments w_sym {A}. Arguments w_radius {A}. Arguments w_ok {A}.
Arguments mSiteBuffer {A}. Arguments mBaseBuffer {A}. Arguments mRadiusStored {A}. Arguments mEventLayerStored {A}. Arguments mBaseLayerStored {A}.
Arguments Build_window {A}. Arguments Build_buffer {A}.
