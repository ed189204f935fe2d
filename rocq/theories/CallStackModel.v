(* CallStackModel.v: the stack of the evaluator: frames, parameters, locals.
   Transcribes src/ulam/CallStack.cpp (all but assignUlamValue's case of a slot holding a pointer).
   Simplifications: the vector is a list, index 0 first; growing it to 2^31 values is OutOfMemory (a value takes at
   least 16 bytes, and the frame pointer is stored as an s32); a failed assert is Assert. *)
From Coq Require Import String List NArith ZArith Lia Bool.
From Coq Require Import ZifyBool ZifyNat ZifyN.
From Verif Require Import Base BitVec UTypeModel AtomModel.
Import ListNotations.
Open Scope N_scope.

(* what a slot holds *)
Inductive cell := CVal (v : uval) | CPtr (p : uptr).

Record cstack := mkCS { cs_frames : list cell; cs_cur : N }.

Inductive res (A : Type) := Ok (a : A) | Assert | OutOfMemory.
Arguments Ok {A} a. Arguments Assert {A}. Arguments OutOfMemory {A}.

Definition rbind {A B} (r : res A) (f : A -> res B) : res B :=
  match r with Ok a => f a | Assert => Assert | OutOfMemory => OutOfMemory end.
Definition ofopt {A} (o : option A) : res A := match o with Some a => Ok a | None => Assert end.

Definition two31 : N := 2147483648.

(* the type Int used for frame pointers: init, CallStack.cpp:17-24 *)
Definition intType : utype := prim EInt 32 (-1).

Definition size (s : cstack) : N := N.of_nat (List.length (cs_frames s)).

(* CallStack.cpp:249-252; std::vector push_back *)
Definition pushArg (c : cell) (s : cstack) : res cstack :=
  if size s + 1 <? two31 then Ok (mkCS (cs_frames s ++ [c]) (cs_cur s)) else OutOfMemory.

(* the two-argument makeImmediate has length 32: include/UlamValue.h:105 *)
Definition immediate32 (v : N) : res cell := rbind (ofopt (makeImmediate_len intType v 32)) (fun x => Ok (CVal x)).

Fixpoint push_n (n : nat) (c : cell) (s : cstack) : res cstack :=
  match n with O => Ok s | S k => rbind (pushArg c s) (push_n k c) end.

(* CallStack.cpp:26-41 *)
Definition addFrameSlots (depth : N) (s : cstack) : res cstack :=
  rbind (immediate32 (cs_cur s)) (fun c =>
  rbind (pushArg c s) (fun s1 =>
  rbind (immediate32 0) (fun c0 =>
  push_n (N.to_nat depth) c0 (mkCS (cs_frames s1) (size s1 - 1))))).

(* CallStack.cpp:43-53.  The first line reads m_frames[m_currentFrame] unchecked: outside the vector is undefined *)
Definition returnFrame (s : cstack) : res cstack :=
  match nth_error (cs_frames s) (N.to_nat (cs_cur s)) with
  | Some (CVal v) =>
    rbind (ofopt (getImmediateData 32 v)) (fun prev =>
    let prevZero := s32z (Z.of_N prev) in
    if (prevZero <? s32z (Z.of_N (size s)))%Z then
      Ok (mkCS (firstn (N.to_nat (cs_cur s)) (cs_frames s)) (Z.to_N (u32z prevZero)))
    else Assert)
  | _ => Assert
  end.

(* CallStack.cpp:71-74: u32 + s32 *)
Definition stackIndexOfSlot (s : cstack) (slot : Z) : N := Z.to_N (u32z (Z.of_N (cs_cur s) + slot)).

(* CallStack.cpp:76-80 *)
Definition storeAtIndex (c : cell) (i : N) (s : cstack) : res cstack :=
  if i <? size s then Ok (mkCS (firstn (N.to_nat i) (cs_frames s) ++ c :: skipn (S (N.to_nat i)) (cs_frames s)) (cs_cur s))
  else Assert.

(* CallStack.cpp:82-86 *)
Definition loadFromIndex (i : N) (s : cstack) : res cell :=
  if i <? size s then ofopt (nth_error (cs_frames s) (N.to_nat i)) else Assert.

(* CallStack.cpp:88-92 *)
Definition storeInSlot (c : cell) (slot : Z) (s : cstack) : res cstack := storeAtIndex c (stackIndexOfSlot s slot) s.

(* CallStack.cpp:94-109 *)
Definition loadFromSlot (slot : Z) (s : cstack) : res cell := loadFromIndex (stackIndexOfSlot s slot) s.

(* CallStack.cpp:110-219 for a value (not a pointer) assigned through a pointer to a slot holding data.
   The direct forms m_frames[...] = ruv are unchecked: outside the vector is undefined (Assert here).
   The absolute form gives up above 64 bits. *)
Definition assignThrough (p : uptr) (ruv : uval) (s : cstack) : res cstack :=
  let i := if p_abs p then Z.to_N (u32z (p_slot p)) else stackIndexOfSlot s (p_slot p) in
  rbind (loadFromIndex i s) (fun c =>
  match c with
  | CPtr _ => Assert
  | CVal cur =>
    if p_abs p && negb (packfit_eqb (p_pack p) UNPACKED) && negb (packfit_eqb (p_pack p) PACKED && isScalar (p_ty p))
       && (64 <? p_len p)
    then Assert
    else rbind (ofopt (assignInSlot p ruv cur)) (fun v => storeAtIndex (CVal v) i s)
  end).

(* CallStack.cpp:230-243 *)
Definition isLocalStackIndex (i : N) (s : cstack) : bool := (cs_cur s <? i) && (i <? size s).
Definition isLocalSlot (slot : Z) (s : cstack) : bool := isLocalStackIndex (stackIndexOfSlot s slot) s.

(* CallStack.cpp:260-266 *)
Definition popArg (s : cstack) : res cstack :=
  match cs_frames s with
  | [] => Assert
  | _ => Ok (mkCS (removelast (cs_frames s)) (cs_cur s))
  end.

(* CallStack.cpp:252-258 *)
Fixpoint popArgs (n : nat) (s : cstack) : res cstack :=
  match n with O => Ok s | S k => rbind (popArg s) (popArgs k) end.

(* the operations the evaluator performs on one of its stacks (NodeFunctionCall.cpp:880-970 pushes arguments, calls,
   pops them; NodeBlockFunctionDefinition.cpp:403-456 and Node.cpp:758-767 bracket a body with addFrameSlots/returnFrame) *)
Inductive instr :=
  | IStore (slot : Z) (c : cell)
  | IPush (c : cell)
  | IPop (n : N)
  | ICall (args depth : N) (body : list instr).   (* args is used by CallStackSpec.v only *)

Fixpoint run1 (i : instr) (s : cstack) {struct i} : res cstack :=
  match i with
  | IStore slot c => storeInSlot c slot s
  | IPush c => pushArg c s
  | IPop n => popArgs (N.to_nat n) s
  | ICall args depth body =>
    rbind (addFrameSlots depth s) (fun s1 =>
    rbind ((fix go (l : list instr) (s : cstack) {struct l} : res cstack :=
              match l with [] => Ok s | x :: r => rbind (run1 x s) (go r) end) body s1) returnFrame)
  end.

Fixpoint run (l : list instr) (s : cstack) : res cstack :=
  match l with [] => Ok s | x :: r => rbind (run1 x s) (run r) end.

(* CallStack.cpp:17-24 *)
Definition initial : cstack :=
  mkCS [CVal (mkUV intType 4294967295)] 0.
