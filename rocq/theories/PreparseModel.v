(* PreparseModel.v: the directives use, load and ulam.
   Transcribes src/ulam/Preparser.cpp:7-266, src/ulam/Tokenizer.cpp:11-14, and of src/ulam/SourceStream.cpp and src/ulam/Lexer.cpp what it calls
   (push, exists, discardTop, setFileUlamVersion; getNextToken's unread token).
   Simplifications: a file is the list of its tokens (what the lexer makes of its bytes is LexerModel.v, what the stream makes of nested files
   SourceStreamModel.v), so no token begins in one file and ends in another; messages and positions are dropped, an error is the token TError.
   EXTERNAL: the file manager's open is a map fs from names to files; strtol of base 0. *)
From Coq Require Import String List NArith ZArith Bool.
From Verif Require Import Base.
Import ListNotations.
Open Scope N_scope.

(* the tokens the preparser tells apart: include/Token.inc; TWord is TOK_IDENTIFIER or TOK_TYPE_IDENTIFIER, TNumber is TOK_NUMBER_SIGNED *)
Inductive rtok :=
| TUse | TLoad | TUlam | TWord (s : text) | TDot | TSemi | TQuoted (s : text) | TNumber (s : text) | TFloat
| TOther (k : N)   (* any other token, structured comments included *)
| TError | TEof.

(* a file: its tokens, and whether its last byte belongs to its last token (the lexer then meets the end of the file while reading that token) *)
Record file := mkFile { f_toks : list rtok; f_abrupt : bool }.

(* SourceStream: m_registeredFilenames, m_fileRecords (what is left to read, m_version), m_openFilesStack; Lexer and Preparser: m_haveUnreadToken, m_lastToken *)
Record pst := mkPst {
  registered : list text;
  rem : text -> file; version : text -> N; open_files : list text; first_file : option text;
  lx_un : bool; lx_last : rtok; pp_un : bool; pp_last : rtok }.

Definition upd {A} (m : text -> A) (f : text) (v : A) : text -> A := fun g => if text_eqb f g then v else m g.
Definition set_rem (st : pst) (f : text) (v : file) : pst :=
  mkPst (registered st) (upd (rem st) f v) (version st) (open_files st) (first_file st) (lx_un st) (lx_last st) (pp_un st) (pp_last st).
Definition set_open (st : pst) (s : list text) : pst :=
  mkPst (registered st) (rem st) (version st) s (first_file st) (lx_un st) (lx_last st) (pp_un st) (pp_last st).
Definition set_lx (st : pst) (u : bool) (t : rtok) : pst :=
  mkPst (registered st) (rem st) (version st) (open_files st) (first_file st) u t (pp_un st) (pp_last st).
Definition set_pp (st : pst) (u : bool) (t : rtok) : pst :=
  mkPst (registered st) (rem st) (version st) (open_files st) (first_file st) (lx_un st) (lx_last st) u t.
Definition set_ver (st : pst) (f : text) (v : N) : pst :=
  mkPst (registered st) (rem st) (upd (version st) f v) (open_files st) (first_file st) (lx_un st) (lx_last st) (pp_un st) (pp_last st).
(* a new stream, lexer and preparser: SourceStream.cpp:11-16, Tokenizer.cpp:7 *)
Definition init_pst : pst := mkPst [] (fun _ => mkFile [] false) (fun _ => 0) [] None false TEof false TEof.

Definition registered_b (st : pst) (f : text) : bool := existsb (text_eqb f) (registered st).
(* SourceStream.cpp:101-158 push: None when the file cannot be opened. A file that was registered before gets a new record in the old one's place. *)
Definition push (fs : text -> option file) (f : text) (onlyOnce : bool) (st : pst) : option pst :=
  if onlyOnce && registered_b st f then Some st
  else match fs f with
       | None => None
       | Some c =>
         Some (mkPst (if registered_b st f then registered st else f :: registered st)
                     (upd (rem st) f c) (upd (version st) f 0) (f :: open_files st)
                     (match first_file st with None => Some f | x => x end)
                     (lx_un st) (lx_last st) (pp_un st) (pp_last st))
       end.
(* SourceStream.cpp:160-193 *)
Definition fexists (fs : text -> option file) (f : text) (st : pst) : bool :=
  registered_b st f || match fs f with Some _ => true | None => false end.
(* SourceStream.cpp:268-281; None: top() of an empty stack *)
Definition setFileUlamVersion (st : pst) (v : N) : option pst :=
  match open_files st with
  | [] => match first_file st with None => Some st | Some _ => None end
  | f :: _ => Some (set_ver st f v)
  end.

(* Lexer::getNextToken, Lexer.cpp:54-154, by tokens: files that have ended are closed (SourceStream.cpp:73-77). The bool: no low level error. *)
Fixpoint next_raw (s : list text) (st : pst) : rtok * pst :=
  match s with
  | [] => (TEof, set_open st [])
  | f :: s' =>
    match f_toks (rem st f) with
    | [] => next_raw s' st
    | t :: r =>
      let st' := set_rem st f (mkFile r (f_abrupt (rem st f))) in
      match t, r with
      | TNumber _, [] => (t, set_open st' (if f_abrupt (rem st f) then s' else f :: s'))
      | _, _ => (t, set_open st' (f :: s'))
      end
    end
  end.
Definition is_error (t : rtok) : bool := match t with TError => true | _ => false end.
Definition lex (st : pst) : rtok * bool * pst :=
  if lx_un st then (lx_last st, true, set_lx st false (lx_last st))
  else let '(t, st) := next_raw (open_files st) st in (t, negb (is_error t), set_lx st false t).
(* Tokenizer.cpp:11-14, for the lexer and for the preparser *)
Definition unread_lex (st : pst) : pst := set_lx st true (lx_last st).
Definition unread_pp (st : pst) : pst := set_pp st true (pp_last st).

(* EXTERNAL strtol(s, &end, 0): the value, clipped to a 64-bit long, and the text after it; the texts here begin with a digit *)
Definition dig (c : N) : N := if (48 <=? c) && (c <=? 57) then c - 48 else if (97 <=? c) && (c <=? 102) then c - 87 else if (65 <=? c) && (c <=? 70) then c - 55 else 99.
Fixpoint digits_of (b acc : N) (s : text) : N * text :=
  match s with
  | [] => (acc, [])
  | c :: r => if dig c <? b then digits_of b (acc * b + dig c) r else (acc, s)
  end.
Definition strtol0 (s : text) : N * text :=
  let '(v, r) := match s with
                 | 48 :: x :: d :: r => if ((x =? 120) || (x =? 88)) && (dig d <? 16) then digits_of 16 0 (d :: r) else digits_of 8 0 s
                 | 48 :: _ => digits_of 8 0 s
                 | _ => digits_of 10 0 s
                 end in
  (N.min v (2 ^ 63 - 1), r).

(* include/UlamVersion.h:42, VERSION.mk:10 *)
Definition ULAMVERSION : N := 5.

(* Preparser.cpp:216-236: s32 numval = strtol(..), then checkFileUlamVersion(u32): None is an error *)
Definition versionOf (s : text) : option N :=
  let '(v, r) := strtol0 s in
  match s, r with
  | _ :: _, [] => let ver := v mod 2 ^ 32 in if ver <=? ULAMVERSION then Some ver else None
  | _, _ => None
  end.

(* StringPoolUser.cpp:249-280 and fnid > 0: isprint in the C locale *)
Definition printable (c : N) : bool := (32 <=? c) && (c <=? 126).

(* results: out of fuel, undefined behaviour, or a token *)
Inductive pres := POut | PFault | PTok (t : rtok) (ok : bool) (st : pst).

(* Preparser.cpp:178-206; None: out of fuel *)
Fixpoint packageName (n : nat) (acc : text) (st : pst) : option (bool * text * pst) :=
  match n with
  | O => None
  | S n =>
    let '(t, ok, st) := lex st in
    if negb ok then Some (false, acc, st)
    else match t with
         | TWord s => packageName n (acc ++ s) st
         | TDot => packageName n (acc ++ txt "/") st
         | TSemi => Some (true, acc ++ txt ".ulam", st)
         | _ => Some (false, acc, unread_lex st)
         end
  end.
(* Preparser.cpp:144-176; a name without characters cannot be opened and is an error here already *)
Definition fileName (acc : text) (st : pst) : bool * text * pst :=
  let '(t, _, st) := lex st in
  match t with
  | TQuoted s =>
    if forallb printable s && negb (match s with [] => true | _ => false end) then
      let '(q, _, st) := lex st in
      match q with TSemi => (true, acc ++ s, st) | _ => (false, acc ++ s, unread_lex st) end
    else (false, acc, st)
  | _ => (false, acc, unread_lex st)
  end.

(* Preparser.cpp:45-72 getNextToken, with 74-101 preparseKeywordUse, 103-131 preparseKeywordLoad, 208-265 preparseKeywordUlam *)
Fixpoint getNextToken (n : nat) (fs : text -> option file) (st : pst) : pres :=
  match n with
  | O => POut
  | S n =>
    let '(t, st) := if pp_un st then (pp_last st, set_pp st false (pp_last st))
                    else let '(t, _, st) := lex st in (t, set_pp st false t) in
    match t with
    | TUse =>
      match packageName n [] st with
      | None => POut
      | Some (ok, name, st) => if ok && fexists fs name st then getNextToken n fs st else PTok TError false st
      end
    | TLoad =>
      match packageName n [] st with
      | None => POut
      | Some (ok, name, st) =>
        let '(ok, name, st) := if ok then (true, name, st) else fileName name st in
        if ok then match push fs name false st with Some st => getNextToken n fs st | None => PTok TError false st end
        else PTok TError false st
      end
    | TUlam =>
      match getNextToken n fs st with
      | PTok nt _ st =>
        let set := match nt with
                   | TNumber s => match versionOf s with
                                  | Some v => match setFileUlamVersion st v with Some st => Some (true, st) | None => None end
                                  | None => Some (false, st)
                                  end
                   | _ => Some (false, st)
                   end in
        match set with
        | None => PFault
        | Some (good, st) =>
          match getNextToken n fs st with
          | PTok q _ st => if good then (match q with TSemi => getNextToken n fs st | _ => PTok TError false st end) else PTok TError false st
          | r => r
          end
        end
      | r => r
      end
    | t => PTok t true st
    end
  end.

(* Preparser.cpp:36-43 and Parser.cpp:121-123; None: an assertion fails *)
Definition peekFirstToken (st : pst) : option (rtok * pst) :=
  if pp_un st then None
  else let '(t, ok, st) := lex st in if ok then Some (t, set_pp st true t) else None.

(* all tokens up to the end *)
Fixpoint drain (n : nat) (fs : text -> option file) (st : pst) : option (list rtok) :=
  match n with
  | O => None
  | S n =>
    match getNextToken n fs st with
    | PTok TEof _ _ => Some []
    | PTok t _ st => option_map (cons t) (drain n fs st)
    | _ => None
    end
  end.
(* Compiler.cpp:204-215 and Parser.cpp:121-128: push the file, peek, read *)
Definition compile (n : nat) (fs : text -> option file) (f : text) : option (list rtok) :=
  match push fs f true init_pst with
  | None => None
  | Some st => match peekFirstToken st with None => None | Some (_, st) => drain n fs st end
  end.
