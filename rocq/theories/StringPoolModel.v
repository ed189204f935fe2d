(* StringPoolModel.v: string interning and the user string table.
   Transcribes src/ulam/StringPool.cpp, src/ulam/StringPoolUser.cpp and
   src/ulam/CompilerState.cpp:4237-4318, 5486-5530. *)
From Coq Require Import String List NArith ZArith Bool.
From Verif Require Import Base HexEscapeModel.
Import ListNotations.
Open Scope N_scope.

(* std::map as association lists; insert of an absent key appends. The keys of the index maps are inserted in
   increasing order (proved in StringPoolProofs), so list order is the iteration order of std::map. *)
Fixpoint find_str {B} (k : text) (m : list (text * B)) : option B :=
  match m with
  | [] => None
  | (k', v) :: r => if text_eqb k k' then Some v else find_str k r
  end.

Fixpoint find_idx {B} (k : N) (m : list (N * B)) : option B :=
  match m with
  | [] => None
  | (k', v) :: r => if k =? k' then Some v else find_idx k r
  end.

(* std::map::insert keeps an existing entry *)
Definition ins_idx {B} (k : N) (v : B) (m : list (N * B)) : list (N * B) :=
  match find_idx k m with Some _ => m | None => m ++ [(k, v)] end.

Record pool := mkPool { dataAsString : list (N * text); stringToIndex : list (text * N) }.

(* StringPool.cpp:8-12 *)
Definition pool_init : pool := mkPool [(0, txt "dummy data")] [].

(* StringPool.cpp:28-45; None is the failed assertion. idx is a u32. *)
Definition getIndexForDataString (p : pool) (str : text) : option (pool * N) :=
  match find_str str (stringToIndex p) with
  | Some idx => Some (p, idx)
  | None =>
    let idx := u32 (N.of_nat (List.length (stringToIndex p)) + 1) in
    if negb (idx =? N.of_nat (List.length (dataAsString p))) then None
    else Some (mkPool (ins_idx idx str (dataAsString p)) (stringToIndex p ++ [(str, idx)]), idx)
  end.

(* StringPool.cpp:54-61 *)
Definition getDataAsString (p : pool) (dataindex : N) : option text :=
  if (dataindex <? N.of_nat (List.length (dataAsString p))) && (0 <? dataindex)
  then find_idx dataindex (dataAsString p) else None.

(* a sequence of interning requests *)
Fixpoint intern_all (p : pool) (reqs : list text) : option (pool * list N) :=
  match reqs with
  | [] => Some (p, [])
  | s :: r =>
    match getIndexForDataString p s with
    | None => None
    | Some (p1, i) =>
      match intern_all p1 r with
      | None => None
      | Some (p2, is) => Some (p2, i :: is)
      end
    end
  end.

(* ---- user string pool ---- *)
Record upool := mkUPool {
  u_data : list (N * text);           (* m_dataAsString: user index -> stored string *)
  u_index : list (text * N);          (* m_stringToDataIndex: stored string -> user index *)
  u_offsets : list N;                 (* m_userIndexToStringPoolIndex *)
  u_running : N                       (* m_runningIndex *)
}.

(* StringPoolUser.cpp:8-10: entry 0 is the empty string at offset 0, which occupies one byte *)
Definition upool_init : upool := mkUPool [(0, [])] [] [0] 1.

(* StringPoolUser.cpp:16-39. str[0] of an empty std::string is the terminating NUL. *)
Definition u_getIndex (p : upool) (str : text) : upool * N :=
  match find_str str (u_index p) with
  | Some i => (p, i)
  | None =>
    let slen := match str with [] => 0 | c :: _ => c end in
    let idx := u_running p in
    let idxforuser := u32 (N.of_nat (List.length (u_offsets p))) in
    (mkUPool (ins_idx idxforuser str (u_data p)) (u_index p ++ [(str, idxforuser)])
             (u_offsets p ++ [idx]) (u32 (idx + slen + 2)), idxforuser)
  end.

(* CompilerState.cpp:5509-5530 formatAndGetIndexForDataUserString and Lexer.cpp:918-940 formatUserString:
   the stored form of a user string: length byte, bytes, NUL; the empty string is a single 0 byte.
   None when longer than MAX_USERSTRING_LENGTH (255). *)
Definition format_user (b : text) : option text :=
  let slen := N.of_nat (List.length b) in
  if 255 <? slen then None
  else if slen =? 0 then Some [0] else Some (slen :: b ++ [0]).

Definition register (p : upool) (b : text) : upool * N :=
  match format_user b with
  | None => (p, 0)
  | Some s => u_getIndex p s
  end.

Fixpoint register_all (p : upool) (bs : list text) : upool * list N :=
  match bs with
  | [] => (p, [])
  | b :: r => let '(p1, i) := register p b in let '(p2, is) := register_all p1 r in (p2, i :: is)
  end.

(* sprintf("\\%03o", c): backslash and three octal digits of a byte *)
Definition octal3 (c : N) : text := [92; 48 + c / 64; 48 + c / 8 mod 8; 48 + c mod 8].

(* StringPoolUser.cpp:324-334 writeEscaped (63 is '?') and :317-322 writeRawChar *)
Definition writeEscaped (c : N) : text := if negb (isgraph c) || (c =? 63) then octal3 c else [c].

(* StringPoolUser.cpp:305-315 writeDblQuotedChar (34 double quote, 92 backslash) *)
Definition writeDblQuotedChar (c : N) : text := if (c =? 34) || (c =? 92) then [92; c] else writeEscaped c.

(* str[i] for i <= length (the terminating NUL); None is a read past the end (undefined) *)
Definition char_at (s : text) (i : nat) : option N :=
  if Nat.eqb i (List.length s) then Some 0 else nth_error s i.

Fixpoint write_chars (s : text) (i : nat) (n : nat) : option text :=
  match n with
  | O => Some []
  | S n' => match char_at s i, write_chars s (S i) n' with
            | Some c, Some r => Some (writeDblQuotedChar c ++ r)
            | _, _ => None
            end
  end.

(* StringPoolUser.cpp:282-303 writeDoubleQuotedString; None when the length byte makes the loop read past the
   end of the stored string *)
Definition writeDoubleQuotedString (str : text) : option text :=
  match str with
  | [] => Some ([34] ++ writeEscaped 0 ++ [34])
  | c :: _ =>
    match write_chars str 1 (N.to_nat c) with
    | Some body => Some ([34] ++ writeDblQuotedChar c ++ body ++ writeEscaped 0 ++ [34])
    | None => None
    end
  end.

(* StringPoolUser.cpp:126-134: the lines of the table; [ind] is the indentation written by CompilerState::indent *)
Fixpoint emit_entries (ind : text) (m : list (N * text)) : option text :=
  match m with
  | [] => Some []
  | (_, s) :: r =>
    match writeDoubleQuotedString s, emit_entries ind r with
    | Some q, Some rest => Some (ind ++ q ++ [10] ++ rest)
    | _, _ => None
    end
  end.

Definition emit_table (ind : text) (p : upool) : option text := emit_entries ind (u_data p).

(* CompilerState.cpp:4251-4256: the declared array size is the running total + 1 *)
Definition declared_size (p : upool) : N := u_running p + 1.

(* StringPoolUser.cpp:104-107 getUserStringCount *)
Definition user_count (p : upool) : N := N.of_nat (List.length (u_offsets p)).

(* StringPoolUser.cpp:63-68 getDataAsString: None is the failed assertion *)
Definition u_getDataAsString (p : upool) (i : N) : option text := find_idx i (u_data p).

(* StringPoolUser.cpp:77-89 getStringLength *)
Definition u_getStringLength (p : upool) (i : N) : option N :=
  match u_getDataAsString p i with
  | None => None
  | Some [] => Some 0
  | Some (c :: r) =>
    let n := N.of_nat (List.length (c :: r)) in
    let slen := if n <? 2 then n - 1 else n - 2 in
    if slen =? c then Some slen else None
  end.

(* StringPoolUser.cpp:91-97 getByteOf *)
Definition u_getByteOf (p : upool) (i offset : N) : option N :=
  match u_getDataAsString p i with
  | None => None
  | Some s => if offset <? N.of_nat (List.length s) then char_at s (N.to_nat (offset + 1)) else None
  end.

(* CompilerState.cpp:5486-5496 isValidUserStringIndex (STRINGIDXMASK is 2^18 - 1, include/Constants.h) *)
Definition isValidUserStringIndex (p : upool) (combined : N) : bool :=
  let sidx := combined mod 2 ^ 18 in
  if sidx =? 0 then false else sidx <? u_running p.

(* StringPoolUser.cpp:190-247 formatDoubleQuotedString: text interned in the compiler pool.
   isprint is 32..126. std::oct prints without padding; note that std::oct stays set on the stream. *)
Definition isprint (c : N) : bool := (32 <=? c) && (c <=? 126).
Definition format_char (c : N) : text :=
  if c =? 7 then txt "\a" else if c =? 8 then txt "\b" else if c =? 9 then txt "\t"
  else if c =? 10 then txt "\n" else if c =? 11 then txt "\v" else if c =? 12 then txt "\f"
  else if c =? 13 then txt "\r" else if c =? 34 then [34] else if c =? 39 then [39]
  else if c =? 92 then [92; 92]
  else if isprint c then [c] else 92 :: oct c.

Definition format_user_quoted (b : text) : text := [34] ++ flat_map format_char b ++ [34].
