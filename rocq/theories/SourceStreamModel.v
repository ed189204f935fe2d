(* SourceStreamModel.v: source positions and the stack of open source files.
   Transcribes src/ulam/Locator.cpp, src/ulam/SourceStream.cpp, include/SourceStream.h:164-258,
   src/ulam/FileString.cpp:22-41 and src/ulam/CompilerState.cpp:6616-6689.
   Simplifications: file names and lines of text are represented by themselves or by their string pool
   index (the pool is injective and stable, C07); the full path index of a locator, which never takes part in
   comparisons, is left out; the file manager is a function from the file name's index to the file's contents. *)
From Coq Require Import String List NArith ZArith Bool.
From Verif Require Import Base StringPoolModel.
Import ListNotations.
Open Scope N_scope.

Definition u16 (n : N) : N := n mod 65536.

(* include/Locator.h:65-70: u32 path index, u16 line and byte *)
Record locator := mkLoc { l_path : N; l_line : N; l_byte : N }.

(* Locator.cpp:5-6 *)
Definition loc_init (p : N) : locator := mkLoc p 0 0.

(* Locator.cpp:39-60; c is an s32 *)
Definition updateLineByteNo (l : locator) (c : Z) : locator :=
  if (c <? 0)%Z then l else
  let line := if l_line l =? 0 then 1 else l_line l in
  if (c =? 10)%Z then mkLoc (l_path l) (u16 (line + 1)) 0
  else mkLoc (l_path l) line (u16 (l_byte l + 1)).

(* Locator.cpp:62-65 *)
Definition hasNeverBeenRead (l : locator) : bool := (l_line l =? 0) && (l_byte l =? 0).

(* Locator.cpp:67-79 *)
Definition loc_lt (a b : locator) : bool :=
  if l_path a <? l_path b then true else if l_path b <? l_path a then false else
  if l_line a <? l_line b then true else if l_line b <? l_line a then false else
  if l_byte a <? l_byte b then true else if l_byte b <? l_byte a then false else false.

(* Locator.cpp:81-84 *)
Definition loc_eqb (a b : locator) : bool :=
  (l_path a =? l_path b) && (l_line a =? l_line b) && (l_byte a =? l_byte b).

(* reading the bytes of a text one after the other, as SourceStream.cpp:65 does *)
Definition loc_after (p : N) (s : text) : locator :=
  fold_left (fun l c => updateLineByteNo l (Z.of_N c)) s (loc_init p).

(* include/SourceStream.h:164-190. fr_fp is the unread rest of the open file, None a NULL pointer.
   m_unreadByte is not initialised by the constructor: None. *)
Record filerec := mkRec {
  fr_loc : locator; fr_fp : option text; fr_uloc : locator; fr_ubyte : option Z;
  fr_have : bool; fr_ver : N; fr_line : text }.

Definition rec_null : filerec := mkRec (loc_init 0) None (loc_init 0) None false 0 [].

(* include/SourceStream.h:182-190 on a fresh filerec *)
Definition rec_open (path : N) (content : text) : filerec :=
  mkRec (loc_init path) (Some content) (loc_init path) None false 0 [].

Record stream := mkS {
  s_reg : list (N * N);            (* m_registeredFilenames: name index -> id *)
  s_stack : list N;                (* m_openFilesStack, top first *)
  s_recs : list filerec;           (* m_fileRecords *)
  s_lastB : option Z;              (* m_lastReadByte, not initialised *)
  s_lastLoc : locator;             (* m_lastReadLoc *)
  s_lines : list (N * list text)   (* CompilerState::m_textByLinePerFilePath *)
}.

(* SourceStream.cpp:11-16 *)
Definition stream_init : stream := mkS [] [] [rec_null] None (loc_init 0) [].

Fixpoint set_nth {A} (n : nat) (x : A) (l : list A) : list A :=
  match l, n with
  | [], _ => []
  | _ :: r, O => x :: r
  | y :: r, S m => y :: set_nth m x r
  end.

(* m_fileRecords[id]; None is an out-of-range subscript *)
Definition getrec (s : stream) (id : N) : option filerec := nth_error (s_recs s) (N.to_nat id).
Definition setrec (s : stream) (id : N) (r : filerec) : stream :=
  mkS (s_reg s) (s_stack s) (set_nth (N.to_nat id) r (s_recs s)) (s_lastB s) (s_lastLoc s) (s_lines s).

Definition set_have (r : filerec) (b : bool) : filerec :=
  mkRec (fr_loc r) (fr_fp r) (fr_uloc r) (fr_ubyte r) b (fr_ver r) (fr_line r).

(* SourceStream.cpp:28-44; the DEBUG message of a second unread is left out *)
Definition unread (s : stream) : option stream :=
  match s_stack s with
  | [] => Some s
  | id :: _ =>
    match getrec s id with
    | None => None
    | Some r => Some (setrec s id (set_have r true))
    end
  end.

(* SourceStream.cpp:194-204, with closeFile of SourceStream.h:192-200 *)
Definition discardTop (s : stream) : option stream :=
  match s_stack s with
  | [] => Some s
  | id :: rest =>
    match getrec s id with
    | None => None
    | Some r =>
      let r' := mkRec (fr_loc r) None (fr_uloc r) (fr_ubyte r) (fr_have r) (fr_ver r) (fr_line r) in
      Some (mkS (s_reg s) rest (set_nth (N.to_nat id) r' (s_recs s)) (s_lastB s) (s_lastLoc s) (s_lines s))
    end
  end.

(* std::map operations on m_textByLinePerFilePath *)
Fixpoint set_lines (p : N) (v : list text) (m : list (N * list text)) : list (N * list text) :=
  match m with
  | [] => [(p, v)]
  | (q, w) :: r => if p =? q then (q, v) :: r else (q, w) :: set_lines p v r
  end.

(* CompilerState.cpp:6617-6652 on one file's vector; linenum > size fills up with "\n" *)
Definition append_line (linenum : N) (t : text) (v : list text) : list text :=
  (if N.of_nat (List.length v) <? linenum
   then v ++ repeat [10] (N.to_nat (linenum - N.of_nat (List.length v))) else v) ++ [t].

Definition appendNextLineOfText (l : locator) (t : text) (m : list (N * list text)) : list (N * list text) :=
  let v := match find_idx (l_path l) m with Some v => v | None => [] end in
  set_lines (l_path l) (append_line (l_line l) t v) m.

(* CompilerState.cpp:6654-6689; textid is never 0 (C07) *)
Inductive line_answer := LineText (t : text) | EmptyLine (n : N) | EmptyPath.
Definition getLineOfText (m : list (N * list text)) (l : locator) : line_answer :=
  match find_idx (l_path l) m with
  | None => EmptyPath
  | Some v =>
    if N.of_nat (List.length v) <=? l_line l then EmptyLine (l_line l)
    else match nth_error v (N.to_nat (l_line l)) with Some t => LineText t | None => EmptyLine (l_line l) end
  end.

(* (char) c as a byte *)
Definition char_of (c : Z) : N := Z.to_N (c mod 256).

(* SourceStream.cpp:303-313 on the record of the file; c was converted to char *)
Definition updateLineOfText (r : filerec) (c : Z) (m : list (N * list text)) : text * list (N * list text) :=
  let t := fr_line r ++ [char_of c] in
  if char_of c =? 10 then ([], appendNextLineOfText (fr_loc r) t m) else (t, m).

(* SourceStream.cpp:46-82. The recursive call follows discardTop, so fuel = stack height + 1 is enough.
   Result: None for a bad subscript or assertion; the byte itself is None if it is indeterminate. *)
Fixpoint read_fuel (fuel : nat) (s : stream) : option (stream * option Z) :=
  match fuel with
  | O => None
  | S f =>
    match s_stack s with
    | [] => Some (s, Some (-1)%Z)
    | id :: _ =>
      match getrec s id with
      | None => None
      | Some r =>
        if fr_have r then Some (setrec s id (set_have r false), fr_ubyte r)
        else match fr_fp r with
        | None => Some (s, s_lastB s)
        | Some rest =>
          (* FileString.cpp:22-41 *)
          let '(c, rest') := match rest with [] => ((-1)%Z, []) | b :: q => (Z.of_N b, q) end in
          if id =? 0 then None else
          let '(lt, lines) := updateLineOfText r c (s_lines s) in
          let loc := updateLineByteNo (fr_loc r) c in
          let r' := mkRec loc (Some rest') (s_lastLoc s) (Some c) false (fr_ver r) lt in
          let s' := mkS (s_reg s) (s_stack s) (set_nth (N.to_nat id) r' (s_recs s)) (Some c) loc lines in
          if (c =? -1)%Z then
            match discardTop s' with
            | None => None
            | Some s2 => read_fuel f s2
            end
          else Some (s', Some c)
        end
      end
    end
  end.

Definition read (s : stream) : option (stream * option Z) := read_fuel (S (List.length (s_stack s))) s.

Section FileSystem.
  Variable fs : N -> option text.

  Definition isPushed (s : stream) (findex : N) : bool :=
    match find_idx findex (s_reg s) with Some _ => true | None => false end.

  (* SourceStream.cpp:101-160; the result is true for 0 (success) and false for an error message *)
  Definition push (s : stream) (findex : N) (onlyOnce : bool) : option (stream * bool) :=
    if onlyOnce && isPushed s findex then Some (s, true) else
    match fs findex with
    | None => Some (s, false)
    | Some content =>
      match find_idx findex (s_reg s) with
      | None =>
        let newid := u16 (N.of_nat (List.length (s_reg s)) + 1) in
        Some (mkS (s_reg s ++ [(findex, newid)]) (newid :: s_stack s)
                  (s_recs s ++ [rec_open findex content]) (s_lastB s) (s_lastLoc s) (s_lines s), true)
      | Some newid =>
        if N.of_nat (List.length (s_recs s)) <=? newid then None else
        Some (mkS (s_reg s) (newid :: s_stack s)
                  (set_nth (N.to_nat newid) (rec_open findex content) (s_recs s))
                  (s_lastB s) (s_lastLoc s) (s_lines s), true)
      end
    end.

  (* SourceStream.cpp:212-236 *)
  Definition getLocator (s : stream) : option locator :=
    match s_stack s with
    | [] => match s_recs s with
            | _ :: r1 :: _ => Some (fr_loc r1)
            | r0 :: _ => Some (fr_loc r0)
            | [] => None
            end
    | id :: _ =>
      match getrec s id with
      | None => None
      | Some r =>
        if (match fr_fp r with Some _ => true | None => false end) && hasNeverBeenRead (fr_loc r)
        then Some (s_lastLoc s)
        else if fr_have r then Some (fr_uloc r) else Some (fr_loc r)
      end
    end.

  (* what the tokenizer and the preparser do with a stream *)
  Inductive op := ORead | OUnread | OPush (f : N) (once : bool).

  (* the observation after each operation: the result and the position reported *)
  Inductive result := RByte (c : option Z) | RUnit | RPush (ok : bool).

  Definition step (s : stream) (o : op) : option (stream * result) :=
    match o with
    | ORead => match read s with Some (s', c) => Some (s', RByte c) | None => None end
    | OUnread => match unread s with Some s' => Some (s', RUnit) | None => None end
    | OPush f once => match push s f once with Some (s', b) => Some (s', RPush b) | None => None end
    end.

  Fixpoint run (s : stream) (ops : list op) : option (stream * list (result * option locator)) :=
    match ops with
    | [] => Some (s, [])
    | o :: r =>
      match step s o with
      | None => None
      | Some (s1, x) =>
        match run s1 r with
        | None => None
        | Some (s2, xs) => Some (s2, (x, getLocator s1) :: xs)
        end
      end
    end.
End FileSystem.
