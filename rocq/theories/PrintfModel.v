(* PrintfModel.v: printf of the byte streams, and the arguments a call hands to it.
   Transcribes share/tcc/stdlib/Uq_10109216ByteStreamWriter10_native.tcc:66-206 and Uq_10109210ByteStream10_native.tcc:60-161 (printf),
   src/ulam/NodeFunctionCall.cpp:393-429 (variable arguments checked) and :2021-2047 (variable arguments generated).
   What is written is kept as the list of what is handed to the sink, in order; how the sink writes a number in a base (ByteSink.Print)
   is EXTERNAL.  Also EXTERNAL: BitStorage.Read of the bits of an argument (here the pattern of its bits, o_raw), the reading of a mangled
   type name (UlamTypeInfo; o_type), the global string pool of the generated code (pool; None is the null pointer).
   Simplifications: an argument is a scalar or a class, no array; a constant cast to its own type (CompilerState.cpp:1705-1708) is itself. *)
From Coq Require Import String List NArith ZArith Bool.
From Verif Require Import Base UTypeModel PrimModel.
Import ListNotations.
Open Scope N_scope.

Inductive fmt := HEX | BIN | OCT | DEC.
(* WriteByte, Print of a number in a base, Print as a byte, Print of bytes, and Printf("<unhandled '%%%c'>") *)
Inductive ev := Byte (b : N) | Num (z : Z) (f : fmt) | Chr (n : N) | Str (s : list N) | Unhandled (ch : N).
(* how it ends: normally, by FAIL of one of the codes, by reading arguments behind the null pointer (undefined), by a Read of more than 32 bits *)
Inductive stop := Done | IllegalArgument | OutOfBounds | IllegalState | IncompleteCode | Overrun | WideRead.
(* o_type: None, the name cannot be read; Some None, a class; Some (Some (e, n)), a primitive of n bits *)
Record vobj := mkObj { o_type : option (option (etype * N)); o_raw : N }.

(* :150-153 *)
Definition base_of (ch : N) : option fmt :=
  if ch =? 120 then Some HEX else if ch =? 98 then Some BIN else if ch =? 111 then Some OCT else if ch =? 100 then Some DEC else None.
(* :155-172; Read and ReadLong give the pattern, _Int32ToCs32 and _Int64ToCs64 are ext_val EInt (PrimModel.v) *)
Definition printinbase (e : etype) (bits raw : N) (f : fmt) : ev :=
  if bits <=? 32 then
    let val := raw mod 2 ^ bits in
    match e with EInt => Num (ext_val EInt (Z.of_N bits) val) f | _ => Num (Z.of_N val) f end
  else
    let val := raw mod 2 ^ bits in
    match e with EInt => Num (ext_val EInt (Z.of_N bits) val) f | _ => Num (Z.of_N val) f end.
(* :97-200, one conversion with its argument; writer: the version of ByteStreamWriter (its default case differs, :198-199 and
   ByteStream10_native.tcc:153-154) *)
Definition convert (writer : bool) (pool : N -> option (list N)) (ch : N) (o : vobj) : list ev * stop :=
  match o_type o with
  | None => ([], IllegalState)
  | Some asprim =>
    match base_of ch with
    | Some f => match asprim with None => ([], IllegalArgument) | Some (e, bits) => ([printinbase e bits (o_raw o) f], Done) end
    | None =>
      if ch =? 99 then
        match asprim with
        | None => ([], IllegalArgument)
        | Some (_, bits) => if 32 <? bits then ([], WideRead) else ([Chr (o_raw o mod 2 ^ bits)], Done)
        end
      else if ch =? 115 then
        match asprim with
        | None => ([], IllegalArgument)
        | Some (EString, _) => match pool (o_raw o) with None => ([], IllegalState) | Some s => ([Str s], Done) end
        | Some _ => ([], IllegalArgument)
        end
      else if writer then ([Unhandled ch], Done) else ([], IncompleteCode)
    end
  end.
Definition before (e : list ev) (r : list ev * stop) : list ev * stop := (e ++ fst r, snd r).
(* :80-202: p the bytes at the pointer, their end being the zero behind them; ap the arguments not taken yet, None the null pointer *)
Fixpoint printf (writer : bool) (pool : N -> option (list N)) (p : list N) (ap : list (option vobj)) : list ev * stop :=
  match p with
  | [] => ([], Done)
  | ch :: p1 =>
    if ch =? 0 then ([], Done)
    else if negb (ch =? 37) then before [Byte ch] (printf writer pool p1 ap)
    else
      match p1 with
      | [] => ([], IllegalArgument)
      | c2 :: p2 =>
        if c2 =? 0 then ([], IllegalArgument)
        else if c2 =? 37 then before [Byte 37] (printf writer pool p2 ap)
        else
          match ap with
          | [] => ([], Overrun)
          | None :: _ => ([], OutOfBounds)
          | Some o :: ap1 =>
            match convert writer pool c2 o with
            | (e, Done) => before e (printf writer pool p2 ap1)
            | r => r
            end
          end
      end
  end.

(* an argument node behind the parameters: constant or not, the reference kind of its type, and the object made of its value *)
Record anode := mkNode { n_const : bool; n_alt : alt; n_obj : vobj }.
(* NodeFunctionCall.cpp:393-429: the arguments refused, by their index *)
Fixpoint refused (i : nat) (l : list anode) : list nat :=
  match l with
  | [] => []
  | a :: r =>
    if n_const a then refused (S i) r
    else match n_alt a with AltRef | AltConstref => i :: refused (S i) r | _ => refused (S i) r end
  end.
(* :2021-2047; None is the abort *)
Fixpoint pointers (l : list anode) : option (list (option vobj)) :=
  match l with
  | [] => Some [None]
  | a :: r =>
    match n_alt a with
    | AltNot => match pointers r with Some t => Some (Some (n_obj a) :: t) | None => None end
    | _ => None
    end
  end.
