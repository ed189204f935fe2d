(** Diagnostics: the message handler, and how the compiler driver turns counted errors into
    its result and exit status.

    Modelled code (under /repo): src/ulam/ErrorMessageHandler.cpp (whole file),
    src/ulam/Compiler.cpp 67-205 (compileFiles, compileFile) and 233-373
    (checkAndTypeLabelProgram), src/ulam/Parser.cpp 105-175 (parseProgram),
    src/drivers/culam/main.cpp 175-192 and 289-330 (RunCompilation and the value main
    returns).

    Simplifications.  What a compiler phase reports is given as a list of messages, arbitrary
    for each phase; no phase clears the counts or changes the mode itself (the only calls of
    clearCounts, revertToWaitMode and changeWaitToErrMode are the modelled ones, and
    SymbolTableOfClasses.cpp 58, which only the test driver reaches).  The text written to the debug stream is left out.  The summary messages
    at the end of a phase are informational, change no count, and are left out.  The file
    argument of setFileOutput is a number.  *)
From Coq Require Import String List NArith ZArith Lia Bool.
From Verif Require Import Base.
Import ListNotations.
Open Scope N_scope.

(** enum MSGTYPE: include/ErrorMessageHandler.h 57 *)
Inductive msgtype := MSG_ERR | MSG_WARN | MSG_INFO | MSG_NOTE | MSG_DEBUG | MSG_WAIT.

(** A message given to buildMessage; [m_turn] is what turnWaitMessageIntoErrorMessage
    (CompilerState.cpp 3003-3018) answers at that moment.  *)
Record message := Msg { m_loc : text; m_text : text; m_type : msgtype; m_turn : bool }.
Definition err_msg (loc t : text) : message := Msg loc t MSG_ERR false.

(** What happens to a handler.  [EvMsg m]: buildMessage.
    [EvFail]: a failure written straight to the error output (Compiler.cpp 186-193).  *)
Inductive event :=
| EvMsg (m : message)
| EvOut (f : option N)      (* setFileOutput *)
| EvWait (b : bool)         (* revertToWaitMode, changeWaitToErrMode *)
| EvClear                   (* clearCounts *)
| EvFail.

(** The handler: ErrorMessageHandler.h 91-102.  [h_written] lists what was written to which
    file, [h_log] the events so far; both are for stating properties only.  *)
Record handler := mkH
  { h_info : bool; h_note : bool; h_warn : bool; h_wait : bool;
    h_out : option N; h_nerr : N; h_nwarn : N; h_seen : list text;
    h_written : list (N * text); h_log : list event }.

Definition seen (t : text) (l : list text) : bool := existsb (text_eqb t) l.

(** The text made by outputMsg: ErrorMessageHandler.cpp 146-148 *)
Definition user_text (loc label msg : text) : text :=
  loc ++ txt " " ++ label ++ txt ": " ++ msg ++ txt "." ++ [10].

(** outputMsg with toUser: ErrorMessageHandler.cpp 135-162 *)
Definition output_user (loc msg label : text) (h : handler) : handler :=
  match h_out h with
  | None => h
  | Some f =>
    let t := user_text loc label msg in
    if seen t (h_seen h) then h
    else mkH (h_info h) (h_note h) (h_warn h) (h_wait h) (h_out h) (h_nerr h) (h_nwarn h)
             (t :: h_seen h) (h_written h ++ [(f, t)]) (h_log h)
  end.

(** incErrorCount, incWarningCount: ErrorMessageHandler.cpp 108-126 (u32 counters) *)
Definition inc_err (h : handler) : handler :=
  mkH (h_info h) (h_note h) (h_warn h) (h_wait h) (h_out h) (u32 (h_nerr h + 1)) (h_nwarn h)
      (h_seen h) (h_written h) (h_log h).
Definition inc_warn (h : handler) : handler :=
  mkH (h_info h) (h_note h) (h_warn h) (h_wait h) (h_out h) (h_nerr h) (u32 (h_nwarn h + 1))
      (h_seen h) (h_written h) (h_log h).

(** buildMessage: ErrorMessageHandler.cpp 54-99 *)
Definition build (loc msg : text) (t : msgtype) (turn : bool) (h : handler) : handler :=
  match t with
  | MSG_ERR => inc_err (output_user loc msg (txt "ERROR") h)
  | MSG_WARN => inc_warn (if h_warn h then output_user loc msg (txt "Warning") h else h)
  | MSG_INFO => if h_info h then output_user loc msg (txt "Info") h else h
  | MSG_NOTE => if h_note h then output_user loc msg (txt "NOTE") h else h
  | MSG_DEBUG => h
  | MSG_WAIT =>
    if h_wait h then h
    else if turn then inc_err (output_user loc msg (txt "ERROR") h) else h
  end.

Definition step (h : handler) (e : event) : handler :=
  let h1 :=
    match e with
    | EvMsg m => build (m_loc m) (m_text m) (m_type m) (m_turn m) h
    | EvOut f => mkH (h_info h) (h_note h) (h_warn h) (h_wait h) f (h_nerr h) (h_nwarn h)
                     (h_seen h) (h_written h) (h_log h)
    | EvWait b => mkH (h_info h) (h_note h) (h_warn h) b (h_out h) (h_nerr h) (h_nwarn h)
                      (h_seen h) (h_written h) (h_log h)
    | EvClear => mkH (h_info h) (h_note h) (h_warn h) (h_wait h) (h_out h) 0 0
                     (h_seen h) (h_written h) (h_log h)
    | EvFail => h
    end in
  mkH (h_info h1) (h_note h1) (h_warn h1) (h_wait h1) (h_out h1) (h_nerr h1) (h_nwarn h1)
      (h_seen h1) (h_written h1) (h_log h1 ++ [e]).

Definition run (es : list event) (h : handler) : handler := fold_left step es h.
Definition report (ms : list message) (h : handler) : handler := run (map EvMsg ms) h.

(** init: ErrorMessageHandler.cpp 20-31 *)
Definition handler0 (info note warn wait : bool) (out : option N) : handler :=
  mkH info note warn wait out 0 0 [] [] [].

(** ** The driver *)

(** One call of compileFile (Compiler.cpp 151-205): the file was parsed before and is fine;
    it was but its class is still unseen (an error message, 1); its name is not a class name
    (an error message, 1); or it is new.  *)
Inductive file_run :=
| AlreadyOk
| AlreadyUnseen (loc msg : text)
| AlreadyBadName (msg : text)
| NewFile (pushfails : bool) (p : parse_run)
(** parseProgram (Parser.cpp 105-175): the name is not a class name (an error message, 1),
    or parsing reports [ms] and the error count is returned.  *)
with parse_run :=
| ParsedBadName (msg : text)
| Parsed (ms : list message).

Definition parse_program (errput : N) (p : parse_run) (h : handler) : N * handler :=
  let h1 := run [EvOut (Some errput)] h in
  match p with
  | ParsedBadName msg => (1, report [err_msg [] msg] h1)
  | Parsed ms => let h2 := report ms h1 in (h_nerr h2, h2)
  end.

Definition compile_file (errput : N) (f : file_run) (h : handler) : N * handler :=
  match f with
  | AlreadyOk => (0, h)
  | AlreadyUnseen loc msg => (1, report [err_msg loc msg] h)
  | AlreadyBadName msg => (1, report [err_msg [] msg] h)
  | NewFile pf p =>
    let h1 := if pf then run [EvFail] h else h in
    let (n, h2) := parse_program errput p h1 in
    (u32 ((if pf then 1 else 0) + n), h2)
  end.

(** The loops over files: Compiler.cpp 76-81, 100-105 *)
Fixpoint compile_list (errput : N) (fs : list file_run) (perrs : N) (h : handler) : N * handler :=
  match fs with
  | [] => (perrs, h)
  | f :: r =>
    let (n, h1) := compile_file errput f h in
    compile_list errput r (u32 (perrs + n)) h1
  end.

(** while(!perrs && getUnseenClassFilenames(..)): Compiler.cpp 84-109; each round is the
    list of existing files found.  *)
Fixpoint compile_rounds (errput : N) (rs : list (list file_run)) (perrs : N) (h : handler)
  : N * handler :=
  match rs with
  | [] => (perrs, h)
  | fs :: r =>
    if perrs =? 0 then
      let (n, h1) := compile_list errput fs perrs h in
      compile_rounds errput r n h1
    else (perrs, h)
  end.

(** MAX_ITERATIONS: include/Constants.h 206 *)
Definition MAX_ITERATIONS : nat := 99.

(** The resolving loop (Compiler.cpp 245-264): turn [n] reports [fst (its n)] and is the
    last one if [snd (its n)].  Yields the number of turns (infcounter) and the handler.  *)
Fixpoint resolve (fuel : nat) (its : nat -> list message * bool) (n : nat) (h : handler)
  : nat * handler :=
  match fuel with
  | O => (n, h)
  | S g =>
    let h1 := report (fst (its n)) (run [EvClear] h) in
    if (MAX_ITERATIONS <? S n)%nat || (0 <? h_nerr h1) then (S n, h1)
    else
      let h2 := if (S n =? MAX_ITERATIONS)%nat then run [EvWait false] h1 else h1 in
      if snd (its n) then (S n, h2) else resolve g its (S n) h2
  end.

(** The loop over virtual function indexes (Compiler.cpp 290-305); the message at its end is
    an error.  *)
Fixpoint virtuals (fuel : nat) (its : nat -> list message * bool) (msg : text) (n : nat)
    (h : handler) : handler :=
  match fuel with
  | O => h
  | S g =>
    let h1 := report (fst (its n)) h in
    if (MAX_ITERATIONS <? S n)%nat then report [err_msg [] msg] h1
    else
      let h2 := if (S n =? MAX_ITERATIONS)%nat then run [EvWait false] h1 else h1 in
      if snd (its n) then h2 else virtuals g its msg (S n) h2
  end.

(** A phase that runs only while no error is counted.  *)
Definition guarded (ms : list message) (h : handler) : handler :=
  if h_nerr h =? 0 then report ms h else h.

(** What the phases of checkAndTypeLabelProgram report.  *)
Record labeling := mkLab
  { lb_first : list message;                 (* updateLineageAndFirstCheckAndLabelPass *)
    lb_resolve : nat -> list message * bool; (* resolvingLoop, turn by turn *)
    lb_custom : list message;                (* checkCustomArraysForTableOfClasses *)
    lb_dups : list message;                  (* checkDuplicateFunctionsForTableOfClasses *)
    lb_depth : list message;                 (* calcMaxDepthOfFunctionsForTableOfClasses *)
    lb_virtual : nat -> list message * bool; (* calcMaxIndexOfVirtualFunctions.. *)
    lb_vmsg : text;
    lb_abstract : list message;              (* checkAbstractInstanceErrors.. *)
    lb_pack : list message;                  (* packBitsForTableOfClasses *)
    lb_print : list message;                 (* printBitSizeOfTableOfClasses *)
    lb_defaults : list message;              (* buildDefaultValuesFromTableOfClasses *)
    lb_unknown : list message;               (* reportUnknownTypeNames.. *)
    lb_last : list message }.                (* long class names, UrSelf, node counts *)

(** checkAndTypeLabelProgram: Compiler.cpp 233-373 *)
Definition label_program (errput : N) (l : labeling) (h : handler) : N * handler :=
  let h1 := report (lb_first l) (run [EvOut (Some errput); EvClear] h) in
  let (inf, h2) :=
    if h_nerr h1 =? 0 then resolve (S (S MAX_ITERATIONS)) (lb_resolve l) 0 h1 else (O, h1) in
  let h3 :=
    if h_nerr h2 =? 0 then
      let h4 := guarded (lb_depth l) (guarded (lb_dups l) (report (lb_custom l) h2)) in
      let h5 := if h_nerr h4 =? 0
                then virtuals (S (S MAX_ITERATIONS)) (lb_virtual l) (lb_vmsg l) 0
                              (run [EvWait true] h4)
                else h4 in
      let h6 := if (MAX_ITERATIONS <=? inf)%nat then run [EvWait false] h5 else h5 in
      guarded (lb_defaults l) (guarded (lb_print l) (guarded (lb_pack l)
        (guarded (lb_abstract l) h6)))
    else h2 in
  let h7 := report (lb_last l) (guarded (lb_unknown l) h3) in
  (h_nerr h7, h7).

(** compileFiles: Compiler.cpp 67-149 *)
Definition compile_files (errput : N) (fs : list file_run) (rs : list (list file_run))
    (l : labeling) (registry gencode : list message) (h : handler) : N * handler :=
  let (p1, h1) := compile_list errput fs 0 h in
  let (p2, h2) := compile_rounds errput rs p1 h1 in
  let (p3, h3) := if p2 =? 0 then label_program errput l h2 else (p2, h2) in
  let (p4, h4) := if p3 =? 0 then let h := report registry h3 in (h_nerr h, h) else (p3, h3) in
  if p4 =? 0 then let h := report gencode h4 in (h_nerr h, h) else (p4, h4).

(** The value returned by main (culam/main.cpp: [return result]) as a process exit status:
    its low 8 bits (EXTERNAL: POSIX exit).  *)
Definition exit_status (perrs : N) : N := perrs mod 256.
