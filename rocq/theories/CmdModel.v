(* CmdModel.v: the command line of the compiler, and where it looks for files.
   Transcribes src/drivers/culam/main.cpp:98-128 (SetOutputDir, AddSharedInputDir), 130-172 (EndsWith, AddClassName,
   AddInputDir), 229-284 (main up to the compilation), 331-334 (the catch), src/ulam/FileManagerStdio.cpp:10-68.
   Simplifications: the file system is given: which full paths fopen opens; an argument is a list of bytes without 0.
   isalnum (EXTERNAL) is the one of the C locale; given a char below 0 it is undefined.  ULAM_SHARE_DIR is given, or
   not configured.  Modes WRITE, APPEND and READWRITE differ for the file system only. *)
From Coq Require Import String List NArith Bool.
From Verif Require Import Base SourceStreamModel.
Import ListNotations.
Open Scope N_scope.

Definition teq (a b : text) : bool := if list_eq_dec N.eq_dec a b then true else false.
Definition EXT : text := txt ".ulam".

(* main.cpp:130-134: std::equal from the back *)
Fixpoint prefix (a b : text) : bool :=
  match a, b with [], _ => true | x :: a, y :: b => (x =? y) && prefix a b | _, [] => false end.
Definition EndsWith (value ending : text) : bool :=
  if Nat.ltb (List.length value) (List.length ending) then false else prefix (rev ending) (rev value).

(* EXTERNAL: <ctype.h> in the C locale; None: the argument is neither an unsigned char nor EOF *)
Definition isalnum (c : N) : option bool :=
  if c <? 128 then Some ((48 <=? c) && (c <=? 57) || (65 <=? c) && (c <=? 90) || (97 <=? c) && (c <=? 122)) else None.

(* what becomes of a command *)
Inductive outcome A := Done (a : A) | Died | Undefined.
Arguments Done {A}. Arguments Died {A}. Arguments Undefined {A}.

(* main.cpp:148-158 *)
Fixpoint allAlnum (s : text) : outcome unit :=
  match s with
  | [] => Done tt
  | c :: r => match isalnum c with None => Undefined | Some false => Died | Some true => allAlnum r end
  end.

(* main.cpp:136-164: the file name that is added *)
Definition AddClassName (path : text) : outcome text :=
  let classname := if EndsWith path EXT then firstn (Nat.sub (List.length path) (List.length EXT)) path else path in
  match classname with
  | [] => Died
  | c0 :: _ =>
    match allAlnum classname with
    | Died => Died
    | Undefined => Undefined
    | Done _ => if (c0 <? 65) || (90 <? c0) then Died else Done (classname ++ EXT)
    end
  end.

(* what the compilation is started with *)
Record setting := mkSet { outdir : option text; dirs : list text; files : list text; debug : bool }.
Inductive command := Run (s : setting) | Help | Version | Die | Undef.

(* main.cpp:241-281.  After the last argument argv[0] is a null pointer: as outdir it is no directory (nothing is set),
   as the directory of -i it is made a std::string, which is undefined *)
Fixpoint args_loop (args : list text) (noMoreSwitches : bool) (s : setting) : command :=
  match args with
  | [] => Run s
  | arg :: rest =>
    let dash := match arg with c :: _ => c =? 45 | [] => false end in
    if dash && noMoreSwitches then Die
    else if teq arg (txt "-h") then Help
    else if teq arg (txt "-V") then Version
    else if teq arg (txt "-o") then
      match outdir s with
      | Some _ => Die
      | None => match rest with
                | [] => Run s
                | d :: rest => args_loop rest noMoreSwitches (mkSet (Some d) (dirs s) (files s) (debug s))
                end
      end
    else if teq arg (txt "-i") then
      match rest with
      | [] => Undef
      | d :: rest => args_loop rest noMoreSwitches (mkSet (outdir s) (dirs s ++ [d]) (files s) (debug s))
      end
    else if teq arg (txt "-g") then args_loop rest noMoreSwitches (mkSet (outdir s) (dirs s) (files s) true)
    else if dash then Die
    else match AddClassName arg with
         | Died => Die
         | Undefined => Undef
         | Done f => args_loop rest true (mkSet (outdir s) (dirs s) (files s ++ [f]) (debug s))
         end
  end.

(* main.cpp:239: the first class is UrSelf *)
Definition main (args : list text) : command :=
  match AddClassName (txt "UrSelf.ulam") with
  | Done f => args_loop args false (mkSet None [] [f] false)
  | Died => Die
  | Undefined => Undef
  end.

(* main.cpp:98-105, 282-285 *)
Definition SetOutputDir (s : setting) : text :=
  match outdir s with Some [] | None => txt "." | Some d => d end.
(* main.cpp:42, 117-128, 166-169, 287: the directories of the source file manager *)
Definition srcDir : text := txt ".".
Definition readDirs (share : option text) (s : setting) : list text :=
  dirs s ++ match share with Some d => [d ++ txt "/ulam/stdlib"] | None => [] end.

Section Files.
  Inductive mode := READ | WRITE.
  (* EXTERNAL: fopen finds, or makes, the file *)
  Variable fopen : text -> mode -> bool.

  Fixpoint tryDirs (l : list text) (path : text) : option text :=
    match l with
    | [] => None
    | d :: r => let fullpath := d ++ txt "/" ++ path in if fopen fullpath READ then Some fullpath else tryDirs r path
    end.
  (* FileManagerStdio.cpp:21-68: the path of the file that is opened *)
  Definition open (dirPath : text) (otherReadDirs : list text) (path : text) (m : mode) : option text :=
    let absolute := match path with c :: _ => c =? 47 | [] => false end in
    let fullpath := if absolute then path else dirPath ++ txt "/" ++ path in
    if fopen fullpath m then Some fullpath
    else match m with
         | READ => if negb absolute then tryDirs otherReadDirs path else None
         | WRITE => None
         end.
End Files.
