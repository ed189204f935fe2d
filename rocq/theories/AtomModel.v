(* AtomModel.v: values of the evaluator: bit fields of an atom, pointers into it, packed arrays.
   Transcribes src/ulam/UlamValue.cpp:34-242, 281-337, 503-512, 579-1011 and
   src/ulam/CompilerState.cpp:1748-1775, 1859-1863.
   Simplifications:
   - the 96 bits of a value are one number (BitVec.v); AtomBitVector is the EXTERNAL MFM class;
   - a type is the record of UTypeModel.v rather than an index into the type table;
   - the effective-self index of a value is not modelled (no function below reads it);
   - a failed assert, or a field outside the atom, is None;
   - the asserts using UlamType::compareForUlamValueAssignment (type identity) are not modelled;
   - "this" is data, not a pointer, in getDataFromAtom. *)
From Coq Require Import String List NArith ZArith Lia Bool.
From Coq Require Import ZifyBool ZifyNat ZifyN.
From Verif Require Import Base BitVec UTypeModel.
Import ListNotations.
Open Scope N_scope.

Definition ATOM : N := 96.

(* a value: its type and its bits (include/UlamValue.h:51-60) *)
Record uval := mkUV { v_ty : utype; v_bits : N }.

Definition bind {A B} (o : option A) (f : A -> option B) : option B :=
  match o with Some x => f x | None => None end.
Notation "'do' x <- o ; e" := (bind o (fun x => e)) (at level 60, x name, o at level 60, e at level 60).
Definition guard (b : bool) : option unit := if b then Some tt else None.
Notation "'check' b ; e" := (bind (guard b) (fun _ => e)) (at level 60, b at level 60, e at level 60).

(* UlamValue.cpp:962-967; BitVector::Read takes up to 32 bits inside the vector *)
Definition getData (pos len : N) (a : N) : option N :=
  check ((pos + len <=? ATOM) && (len <=? 32)); Some (bv_read ATOM pos len a).

(* UlamValue.cpp:969-974 *)
Definition getDataLong (pos len : N) (a : N) : option N :=
  check ((pos + len <=? ATOM) && (len <=? 64)); Some (bv_read ATOM pos len a).

(* UlamValue.cpp:987-993; the value is a u32 *)
Definition putData (pos len v : N) (a : N) : option N :=
  check ((pos + len <=? ATOM) && (len <=? 32)); Some (bv_write ATOM pos len (u32 v) a).

(* UlamValue.cpp:995-1002; the value is a u64 *)
Definition putDataLong (pos len v : N) (a : N) : option N :=
  check ((pos + len <=? ATOM) && (len <=? 64)); Some (bv_write ATOM pos len (u64 v) a).

(* BV8K: an EXTERNAL MFM BitVector of 8192 bits, all zero when created (include/BitVector.h is MFM's) *)
Definition W8K : N := 8192.

(* UlamValue.cpp:976-985: CopyBV(0u, pos, len, bvref): from position 0 of the atom to position pos of bvref;
   CopyBV reads inside the source and writes inside the destination *)
Definition getDataBig (pos len : N) (a bv : N) : option N :=
  check (len <=? ATOM);
  check (pos + len <=? W8K);
  Some (bv_copy ATOM a 0 pos len W8K bv).

(* UlamValue.cpp:1004-1011 *)
Definition putDataBig (pos len : N) (bv a : N) : option N :=
  check (pos + len <=? ATOM);
  Some (bv_copy W8K bv 0 pos len ATOM a).

(* an s32 used as a length; negative lengths fail the asserts *)
Definition zlen (z : Z) : option N := if (0 <=? z)%Z then Some (Z.to_N z) else None.

(* UlamValue.cpp:104-112 *)
Definition makeImmediate_len (t : utype) (v len : N) : option uval :=
  check (len <=? 32);
  do a <- putData (ATOM - len) len v 0; Some (mkUV t a).

(* UlamValue.cpp:114-123: left-justified *)
Definition makeImmediateClass (t : utype) (v len : N) : option uval :=
  check (len <=? 32);
  do a <- putData 25 len v 0; Some (mkUV t a).

(* UlamValue.cpp:91-102 *)
Definition makeImmediate (t : utype) (v : N) : option uval :=
  do len <- zlen (getTotalBitSize t);
  match ty_enum t with
  | EClass => makeImmediateClass t v len
  | _ => makeImmediate_len t v len
  end.

(* UlamValue.cpp:137-145 *)
Definition makeImmediateLong_len (t : utype) (v len : N) : option uval :=
  check (len <=? 64);
  do a <- putDataLong (ATOM - len) len v 0; Some (mkUV t a).

(* UlamValue.cpp:147-156 *)
Definition makeImmediateLongClass (t : utype) (v len : N) : option uval :=
  check (len <=? 64);
  do a <- putDataLong 25 len v 0; Some (mkUV t a).

(* UlamValue.cpp:125-135 *)
Definition makeImmediateLong (t : utype) (v : N) : option uval :=
  do len <- zlen (getTotalBitSize t);
  match ty_enum t with
  | EClass => makeImmediateLongClass t v len
  | _ => makeImmediateLong_len t v len
  end.

(* include/Constants.h:119 *)
Inductive storage := STACK | EVALRETURN | EVENTWINDOW | CNSTSTACK.

(* a pointer (include/UlamValue.h:62-83) *)
Record uptr := mkPtr {
  p_slot : Z; p_sto : storage; p_ty : utype; p_pack : packfit; p_pos : N; p_len : N; p_abs : bool }.

(* UlamValue.cpp:166-225 *)
Definition makePtr (slot : Z) (sto : storage) (t : utype) (packed : packfit) (pos : N) : option uptr :=
  check ((slot <=? 32767) && (-32768 <=? slot))%Z;
  let len := match packed with
             | UNPACKED => match ty_enum t with EAtom => BITSPERATOM | _ => ty_bits t end
             | _ => getTotalBitSize t
             end in
  if pos =? 0 then
    do n <- zlen len;
    check (n <=? 127);
    match ty_enum t with
    | EClass => Some (mkPtr slot sto t packed 25 n false)
    | EAtom => Some (mkPtr slot sto t packed pos n false)
    | _ => (* u32 basepos = 96 - len; assert at most 255: fails when len > 96 *)
           check (n <=? 96);
           Some (mkPtr slot sto t packed (96 - n) n false)
    end
  else
    let len := if (Z.of_N pos + len >? BITSPERATOM)%Z then ty_base t else len in
    do n <- zlen len;
    check (packfit_eqb packed UNPACKED || (pos + n <=? ATOM));
    check (n <=? 127);
    check (pos <=? 255);
    Some (mkPtr slot sto t packed pos n false).

(* UlamValue.cpp:229-242; getPtrPos asserts pos <= 96 *)
Definition makeScalarPtr (ap : uptr) : option uptr :=
  check (p_pos ap <=? ATOM);
  do p <- makePtr (p_slot ap) (p_sto ap) (asScalar (p_ty ap)) (determinePackable (p_ty ap)) (p_pos ap);
  Some (mkPtr (p_slot p) (p_sto p) (p_ty p) (p_pack p) (p_pos p) (p_len p) (p_abs ap)).

(* UlamValue.cpp:503-512 for a packed target; the unpacked half moves the slot index by offset, and what it returns
   depends on the stack (slotok below) *)
Definition incrementPtr (slotok : Z -> bool) (p : uptr) (offset : Z) : option (uptr * bool) :=
  check (isScalar (p_ty p));
  if WritePacked (p_pack p) then
    let pos := Z.to_N ((Z.of_N (p_pos p) + Z.of_N (p_len p) * offset) mod 256) in   (* u8 *)
    Some (mkPtr (p_slot p) (p_sto p) (p_ty p) (p_pack p) pos (p_len p) (p_abs p), pos <? ATOM)
  else
    let slot := (p_slot p + offset)%Z in
    Some (mkPtr slot (p_sto p) (p_ty p) (p_pack p) (p_pos p) (p_len p) (p_abs p), slotok slot).

(* UlamValue.cpp:403-412 and 422-431: the accessors assert the ranges *)
Definition getPtrPos (p : uptr) : option N := check (p_pos p <=? ATOM); Some (p_pos p).
Definition getPtrLen (p : uptr) : option N := check (p_len p <=? ATOM); Some (p_len p).

(* UlamValue.cpp:764-779 *)
Definition getImmediateData (len : N) (d : uval) : option N :=
  check (len <=? 32);
  match ty_enum (v_ty d) with
  | EAtom | EPtr | ENouti | ENav | EHzy => None
  | EClass => getData 25 len (v_bits d)
  | _ => getData (ATOM - len) len (v_bits d)
  end.

(* UlamValue.cpp:816-831 *)
Definition getImmediateDataLong (len : N) (d : uval) : option N :=
  check (len <=? 64);
  match ty_enum (v_ty d) with
  | EAtom | EPtr | ENouti | ENav | EHzy => None
  | EClass => getDataLong 25 len (v_bits d)
  | _ => getDataLong (ATOM - len) len (v_bits d)
  end.

(* UlamValue.cpp:833-840: always right-justified *)
Definition getImmediateDataLong1 (len : N) (d : uval) : option N :=
  check (len <=? 64);
  match ty_enum (v_ty d) with
  | EAtom | EPtr | ENouti | ENav | EHzy => None
  | _ => getDataLong (ATOM - len) len (v_bits d)
  end.

(* UlamValue.cpp:668-702; "this" is d *)
Definition getDataFromAtom (p : uptr) (d : uval) : option N :=
  check (isScalar (p_ty p) || negb (packfit_eqb (p_pack p) PACKED));
  do len <- getPtrLen p;
  check (len <=? 32);
  do pos <- getPtrPos p;
  if WritePacked (determinePackable (v_ty d)) then getData pos len (v_bits d)
  else match ty_ct (v_ty d), ty_enum (v_ty d) with
       | CNotaclass, EAtom => getData pos len (v_bits d)
       | CNotaclass, _ => getImmediateData len d
       | _, _ => getData pos len (v_bits d)
       end.

(* UlamValue.cpp:711-743 *)
Definition getDataLongFromAtom (p : uptr) (d : uval) : option N :=
  check (isScalar (p_ty p) || negb (packfit_eqb (p_pack p) PACKED));
  do len <- getPtrLen p;
  check (len <=? 64);
  do pos <- getPtrPos p;
  if WritePacked (determinePackable (v_ty d)) then getDataLong pos len (v_bits d)
  else match ty_ct (v_ty d), ty_enum (v_ty d) with
       | CNotaclass, EAtom => getDataLong pos len (v_bits d)
       | CNotaclass, _ => getImmediateDataLong1 len d
       | _, _ => getDataLong pos len (v_bits d)
       end.

(* UlamValue.cpp:281-337, for an array that is not a custom array, held packed in one slot whose contents are d
   (state.getPtrTarget gives d), d's type being the array type and so never the same as the item type.
   The last branch (items of 96 bits) yields a fresh default atom and is not modelled: None. *)
Definition getValAt (slotok : Z -> bool) (ap : uptr) (offset : Z) (d : uval) : option uval :=
  check (0 <=? ty_arr (p_ty ap))%Z;
  do sp0 <- makeScalarPtr ap;
  do r <- incrementPtr slotok sp0 offset;
  check (snd r);
  let sp := fst r in
  do slen <- getPtrLen sp;
  if slen <=? 32 then
    do v <- getDataFromAtom sp d; makeImmediate (p_ty sp) v
  else if slen <=? 64 then
    do v <- getDataLongFromAtom sp d; makeImmediateLong (p_ty sp) v
  else None.

(* UlamValue.cpp:933-960: copies item i of the right-justified data to item i at the pointer, for i = 0.. *)
Fixpoint putPacked_loop (fuel : nat) (i arraysize bitsize : N) (np : uptr) (d a : N) : option N :=
  match fuel with
  | O => Some a
  | S f =>
    do pos <- getPtrPos np;
    do len <- getPtrLen np;
    let dpos := ATOM - bitsize * (arraysize - i) in
    do a' <-
      (if bitsize <=? 32 then do v <- getData dpos bitsize d; putData pos len v a
       else if bitsize <=? 64 then do v <- getDataLong dpos bitsize d; putDataLong pos len v a
       else Some a);
    do r <- incrementPtr (fun _ => true) np 1;
    putPacked_loop f (i + 1) arraysize bitsize (fst r) d a'
  end.

Definition putPackedArrayDataIntoAtom (p : uptr) (d : uval) (a : N) : option N :=
  check (NONARRAYSIZE <? ty_arr (p_ty p))%Z;
  do bitsize <- zlen (ty_bits (p_ty p));
  do np <- makeScalarPtr p;
  do len <- getPtrLen np;
  check (bitsize =? len);
  let n := Z.to_N (ty_arr (p_ty p)) in
  putPacked_loop (N.to_nat n) 0 n bitsize np (v_bits d) a.

(* UlamValue.cpp:861-929; "this" has bits a.  bvtmp is a new BV8K. *)
Definition putByLen (p : uptr) (d : uval) (a : N) : option N :=
  do len <- getPtrLen p;
  do pos <- getPtrPos p;
  if len <=? 32 then do v <- getImmediateData len d; putData pos len v a
  else if len <=? 64 then do v <- getImmediateDataLong len d; putDataLong pos len v a
  else if len <=? 71 then do bv <- getDataBig 25 len (v_bits d) 0; putDataBig pos len bv a
  else None.

Definition putDataIntoAtom (p : uptr) (d : uval) (a : N) : option N :=
  match p_pack p with
  | PACKED =>
    if negb (isScalar (p_ty p)) then putPackedArrayDataIntoAtom p d a
    else if packfit_eqb (getPackable (p_ty p)) PACKEDLOADABLE then putByLen p d a
    else None
  | PACKEDLOADABLE => putByLen p d a
  | UNPACKED => None
  end.

(* UlamValue.cpp:579-666: the value returned starts as a new UlamValue, whose bits are zero *)
Fixpoint getPacked_loop (fuel : nat) (i arraysize bitsize len : N) (big : bool) (np : uptr) (d r : N) : option N :=
  match fuel with
  | O => Some r
  | S f =>
    do itemlen <- getPtrLen np;
    do pos <- getPtrPos np;
    let tpos := ATOM - bitsize * (arraysize - i) in
    do r' <-
      (if itemlen <=? 32 then do v <- getData pos itemlen d; putData tpos bitsize v r
       else if len <=? 64 then do v <- getDataLong pos itemlen d; putDataLong tpos bitsize v r
       else if big && (len =? 96) then do bv <- getDataBig pos itemlen d 0; putDataBig 0 ATOM bv r
       else None);
    do np' <- incrementPtr (fun _ => true) np 1;
    getPacked_loop f (i + 1) arraysize bitsize len big (fst np') d r'
  end.

Definition getPackedArrayDataFromAtom (p : uptr) (d : uval) : option uval :=
  let arr := if (ty_arr (p_ty p) =? NONARRAYSIZE)%Z then 1%Z else ty_arr (p_ty p) in
  check (NONARRAYSIZE <? arr)%Z;
  let n := Z.to_N arr in
  do bitsize <- zlen (ty_bits (p_ty p));
  do len <- getPtrLen p;
  check (bitsize * n =? len);
  match p_pack p with
  | PACKEDLOADABLE =>
    do pos <- getPtrPos p;
    if len <=? 32 then
      do v <- getData pos len (v_bits d); do r <- putData (ATOM - len) len v 0; Some (mkUV (p_ty p) r)
    else if len <=? 64 then
      do v <- getDataLong pos len (v_bits d); do r <- putDataLong (ATOM - len) len v 0; Some (mkUV (p_ty p) r)
    else None
  | PACKED =>
    do np <- makeScalarPtr p;
    do r <- getPacked_loop (N.to_nat n) 0 n bitsize len false np (v_bits d) 0;
    Some (mkUV (p_ty p) r)
  | UNPACKED =>
    check (n =? 1);
    do np <- makeScalarPtr p;
    do r <- getPacked_loop (N.to_nat n) 0 n bitsize len true np (v_bits d) 0;
    Some (mkUV (p_ty p) r)
  end.

(* EXTERNAL MFM _GetNOnes64: n low bits set *)
Definition GetNOnes64 (n : N) : N := N.ones (N.min n 64).

(* CompilerState.cpp:1764-1775; u64 arithmetic, a shift of 64 or more is undefined *)
Fixpoint packedDefault_loop (fuel : nat) (j bitsize len pos dval darr : N) : option N :=
  match fuel with
  | O => Some darr
  | S f =>
    let sh := u32 (len + two32 - u32 (pos + j * bitsize)) in
    check (sh <? 64);
    packedDefault_loop f (j + 1) bitsize len pos dval (N.lor darr (u64 (N.shiftl dval sh)))
  end.

Definition getDefaultAsPackedArray_at (len bitsize arraysize pos dval : N) : option N :=
  if dval =? 0 then Some dval
  else packedDefault_loop (N.to_nat (arraysize - 1)) 1 bitsize len pos (N.land dval (GetNOnes64 bitsize)) dval.

(* CompilerState.cpp:1748-1762; arraysize is a u32: a scalar's -1 becomes 4294967295 *)
Definition getDefaultAsPackedArray (t : utype) (dval : N) : option N :=
  if dval =? 0 then Some 0
  else
    let arraysize := Z.to_N (u32z (ty_arr t)) in
    let arraysize := if 0 <? arraysize then arraysize else 1 in
    getDefaultAsPackedArray_at (Z.to_N (getTotalBitSize t)) (Z.to_N (u32z (ty_bits t))) arraysize 0 dval.

(* CompilerState.cpp:1859-1863 *)
Fixpoint defaultArray_loop (fuel : nat) (j bitsize tpos dval darr : N) : option N :=
  match fuel with
  | O => Some darr
  | S f =>
    check (tpos + j * bitsize + bitsize <=? W8K);
    defaultArray_loop f (j + 1) bitsize tpos dval (bv_copy W8K dval 0 (tpos + j * bitsize) bitsize W8K darr)
  end.
Definition getDefaultAsArray (bitsize arraysize tpos dval darr : N) : option N :=
  defaultArray_loop (N.to_nat arraysize) 0 bitsize tpos dval darr.

(* CallStack.cpp:110-172: what happens to the value in the slot the pointer names, when ruv (not a pointer) is
   assigned through p; the absolute form 174-219 is the same but stops at 64 bits.  The slot holds data, not a
   pointer. *)
Definition assignInSlot (p : uptr) (ruv cur : uval) : option uval :=
  match p_pack p with
  | UNPACKED => Some ruv
  | _ =>
    if packfit_eqb (p_pack p) PACKED && isScalar (p_ty p) then Some ruv
    else
      let ty := match ty_enum (v_ty cur), ty_ct (v_ty cur), ty_enum (p_ty p) with
                | ENouti, _, _ => p_ty p
                | _, CNotaclass, EClass => p_ty p
                | _, _, _ => v_ty cur
                end in
      do len <- getPtrLen p;
      check (len <=? 71);
      do a <- putDataIntoAtom p ruv (v_bits cur);
      Some (mkUV ty a)
  end.

(* NodeSquareBracket.cpp:599-654: reading an array item; offset is the index as an s32; None also stands for the
   error "Array subscript exceeds the size" *)
Definition subscriptLoad (slotok : Z -> bool) (ap : uptr) (offset : Z) (d : uval) : option uval :=
  check (negb (ty_arr (p_ty ap) <=? offset)%Z);
  getValAt slotok ap offset d.

(* NodeSquareBracket.cpp:718-766: the pointer an assignment to an array item stores through *)
Definition subscriptStorePtr (slotok : Z -> bool) (ap : uptr) (offset : Z) : option uptr :=
  do sp <- makeScalarPtr ap;
  do r <- incrementPtr slotok sp offset;
  check (snd r); Some (fst r).
