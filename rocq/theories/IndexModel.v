(* Array subscripts: which indexes the compiler, the evaluator and the generated code accept, and the storage they
   then reach.  NodeSquareBracket.cpp and UlamValue::incrementPtr.

   Simplifications: the array is a plain array (custom arrays and overloaded operator[] become function calls,
   NodeSquareBracket.cpp:190-240,322-375); the operands have been evaluated already, the index is its type and its
   right-justified bits; class typed indexes have been cast to Int and Unary ones to Unsigned (402-412), so the two
   kinds below are the ones left. *)
From Coq Require Import List NArith ZArith Lia Bool.
Import ListNotations.
Open Scope Z_scope.

(* ---- machine integers ---- *)
Definition u8 (z : Z) : Z := z mod 2 ^ 8.
Definition u32 (z : Z) : Z := z mod 2 ^ 32.
Definition s16 (z : Z) : Z := (z + 2 ^ 15) mod 2 ^ 16 - 2 ^ 15.
Definition s32 (z : Z) : Z := (z + 2 ^ 31) mod 2 ^ 32 - 2 ^ 31.

(* Constants.h:133,193 *)
Definition BITSPERATOM : Z := 96.
Definition UNKNOWNSIZE : Z := -2.

(* ---- an evaluated index: Int(n) or Unsigned(n) and its n bits ---- *)
Inductive ikind := KInt | KUnsigned.
Record index := mkIx { ix_kind : ikind; ix_bits : Z; ix_data : Z }.

(* ---- a pointer: UlamValue.h:59-71 (the fields used here) ---- *)
Inductive storage := STACK | EVALRETURN | CNSTSTACK | EVENTWINDOW.
Record ptr := mkP {
  p_slot : Z;            (* s16 m_slotIndex *)
  p_abs : bool;          (* m_utypeIdx: Ptr or PtrAbs *)
  p_pos : Z;             (* u8 m_posInAtom *)
  p_len : Z;             (* s8 m_bitlenInAtom *)
  p_storage : storage;
  p_packed : bool        (* WritePacked(m_packed) *)
}.

(* the stacks a pointer may point into: size and current frame of each, and the valid sites of the event window *)
Record stacks := mkSt { st_size : storage -> Z; st_frame : storage -> Z; st_site : Z -> bool }.

(* CallStack.cpp:69-72 *)
Definition getAbsoluteStackIndexOfSlot (st : stacks) (w : storage) (slot : Z) : Z := u32 (st_frame st w + slot).

(* UlamValue.cpp:503-585; None: abort *)
Definition incrementPtr (st : stacks) (p : ptr) (offset : Z) : option (bool * ptr) :=
  if p_packed p then
    let pos := u8 (p_pos p + p_len p * offset) in
    Some (pos <? BITSPERATOM, mkP (p_slot p) (p_abs p) pos (p_len p) (p_storage p) (p_packed p))
  else
    let slot := s16 (p_slot p + offset) in
    let p' := mkP slot (p_abs p) (p_pos p) (p_len p) (p_storage p) (p_packed p) in
    match p_abs p, p_storage p with
    | false, STACK => Some (getAbsoluteStackIndexOfSlot st STACK slot <? st_size st STACK, p')
    | false, EVALRETURN => Some (getAbsoluteStackIndexOfSlot st EVALRETURN slot <? st_size st EVALRETURN, p')
    | false, CNSTSTACK => None
    | _, EVENTWINDOW => Some (st_site st slot, p')
    | true, w => Some ((0 <? slot) && (slot <? st_size st w), p')
    end.

(* what becomes of an access *)
Inductive access :=
  | Abort                 (* an assertion fails: the compiler stops *)
  | Refused               (* error message, the run ends in an orderly way *)
  | At (p : ptr).         (* goes on with this place *)

Section Eval.
  (* EXTERNAL: _Int32ToCs32/_Unsigned32ToCs32 and _Int64ToCs64/_Unsigned64ToCs64 (getDataAsCs32 and getDataAsCs64,
     UlamTypePrimitiveInt.cpp:261-277, UlamTypePrimitiveUnsigned.cpp:238-251): kind, width, data *)
  Variable cs32 cs64 : ikind -> Z -> Z -> Z.
  Variable st : stacks.

  (* NodeSquareBracket.cpp:617-633 *)
  Definition offsetForRead (i : index) : Z :=
    if ix_bits i <=? 32 then cs32 (ix_kind i) (ix_bits i) (ix_data i)
    else s32 (cs64 (ix_kind i) (ix_bits i) (ix_data i)).

  (* NodeSquareBracket::eval, 614-653, and UlamValue::getValAt, UlamValue.cpp:300-306: the offset becomes u32 and
     then s32 again, and the increment is asserted to succeed *)
  Definition evalRead (p : ptr) (arraysize : Z) (i : index) : access :=
    let o := offsetForRead i in
    if arraysize <=? o then Refused
    else match incrementPtr st p (s32 (u32 o)) with
         | Some (true, p') => At p'
         | _ => Abort
         end.

  (* NodeSquareBracket::evalToStoreInto, 737-757: the index is read with getImmediateData (asserts at most 32 bits,
     UlamValue.cpp:757), the size of the array is only used in the message *)
  Definition evalStore (p : ptr) (i : index) : access :=
    if 32 <? ix_bits i then Abort
    else match incrementPtr st p (cs32 (ix_kind i) (ix_bits i) (ix_data i)) with
         | Some (true, p') => At p'
         | Some (false, _) => Refused
         | None => Abort
         end.

  (* getArraysizeInBracket, 950-973 and checkAndLabelType, 265-307: true when a constant index is let through.
     The data is cut to 32 bits, and read as 32 bit data whatever the width *)
  Definition constIndexOk (arraysize : Z) (i : index) : bool :=
    let n := cs32 (ix_kind i) (ix_bits i) (u32 (ix_data i)) in
    negb ((n <? 0) && negb (n =? UNKNOWNSIZE)) && negb (arraysize <? n).

  (* evalAUserStringByte, 679-713: which byte of a string of the given length *)
  Inductive byteaccess := BAbort | BRefused | Byte (k : Z).
  Definition evalStringByte (strlen : Z) (i : index) : byteaccess :=
    if 32 <? ix_bits i then BAbort
    else if strlen <=? ix_data i then BRefused else Byte (ix_data i).
End Eval.

(* ---- the generated code ---- *)
Inductive gaccess :=
  | GFail                 (* FAIL(ARRAY_INDEX_OUT_OF_BOUNDS) *)
  | GPos (pos : Z).       (* reads or writes the item at this bit position *)

(* genCodeToStoreInto, 1042-1059: the check, only written when the index is not a constant; the temporary variable is
   a u32 or u64 holding the bits of the index (UlamType.cpp:319-340).
   Node.cpp:2231-2325: the position of the item is index times the bit size of an item plus the position of the
   array, handed over as u32 *)
Definition genAccess (isconst : bool) (arraysize itembits pos : Z) (i : index) : gaccess :=
  if negb isconst && (arraysize <=? ix_data i) then GFail
  else GPos (u32 (ix_data i * itembits + pos)).

(* genCodeAUserStringByte, 1127-1160: the check is written for every index *)
Definition genStringByte (strlen : Z) (i : index) : option Z :=
  if strlen <=? ix_data i then None else Some (ix_data i).
