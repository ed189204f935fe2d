(* LexerModel.v: from the bytes of the source to tokens.
   Transcribes include/Token.inc, src/ulam/Token.cpp:112-124,145-148 and src/ulam/Lexer.cpp:54-1060.
   The input is the bytes not yet read, all files in one (C11): reading takes the first byte, at the end it gives -1
   (CompilerState keeps no open file then, so that unread does nothing: SourceStream.cpp:28-44); unread puts the byte
   read last back. A second unread without a read in between does nothing: this happens only in getNextToken after
   eatComment, where it is modelled with the flag [e_pend].
   Simplifications: a token is its type (the name in Token.inc) and its text; the place is left out (C10), so __FILE__,
   __FILEPATH__ and __LINE__, which stand for it, are given back as their own flags; the text of error messages is left
   out; the token put back by unreadToken (Lexer.cpp:58-63) is the parser's. *)
From Coq Require Import String List NArith ZArith Bool.
From Verif Require Import Base StringPoolModel.
Import ListNotations.
Open Scope N_scope.

(* include/Token.h:48 *)
Inductive special := SpSINGLE | SpUNCLEAR | SpDQUOTE | SpSQUOTE | SpCOMMENT | SpHASDATA | SpKEYWORD | SpCTLKEYWORD
  | SpTYPEKEYWORD | SpFLAGKEYWORD | SpOPERATORKEYWORD | SpDEPRECATED | SpERROR.
Definition special_eqb (a b : special) : bool :=
  match a, b with
  | SpSINGLE, SpSINGLE | SpUNCLEAR, SpUNCLEAR | SpDQUOTE, SpDQUOTE | SpSQUOTE, SpSQUOTE | SpCOMMENT, SpCOMMENT
  | SpHASDATA, SpHASDATA | SpKEYWORD, SpKEYWORD | SpCTLKEYWORD, SpCTLKEYWORD | SpTYPEKEYWORD, SpTYPEKEYWORD
  | SpFLAGKEYWORD, SpFLAGKEYWORD | SpOPERATORKEYWORD, SpOPERATORKEYWORD | SpDEPRECATED, SpDEPRECATED
  | SpERROR, SpERROR => true
  | _, _ => false
  end.

(* a row of include/Token.inc: name, spelling, special work, overloadable *)
Record row := mkRow { r_name : string; r_str : text; r_sp : special; r_opol : bool }.

(* include/Token.inc *)
Definition tok_table : list row := [
  mkRow "OPEN_CURLY" (txt "{") SpSINGLE false;
  mkRow "CLOSE_CURLY" (txt "}") SpSINGLE false;
  mkRow "OPEN_PAREN" (txt "(") SpSINGLE false;
  mkRow "CLOSE_PAREN" (txt ")") SpSINGLE false;
  mkRow "OPEN_SQUARE" (txt "[") SpUNCLEAR false;
  mkRow "CLOSE_SQUARE" (txt "]") SpSINGLE false;
  mkRow "SQUARE" (txt "[]") SpUNCLEAR true;
  mkRow "SEMICOLON" (txt ";") SpSINGLE false;
  mkRow "COLON" (txt ":") SpSINGLE false;
  mkRow "COMMA" (txt ",") SpSINGLE false;
  mkRow "QUESTION" (txt "?") SpSINGLE false;
  mkRow "BACKTIC" (txt "`") SpSINGLE false;
  mkRow "DOT" (txt ".") SpUNCLEAR false;
  mkRow "ELLIPSIS" (txt "..") SpUNCLEAR false;
  mkRow "DOUBLE_QUOTE" ([34]) SpDQUOTE false;
  mkRow "SINGLE_QUOTE" (txt "'") SpSQUOTE false;
  mkRow "AMP" (txt "&") SpUNCLEAR true;
  mkRow "AMP_EQUAL" (txt "&=") SpUNCLEAR true;
  mkRow "AMP_AMP" (txt "&&") SpUNCLEAR false;
  mkRow "PIPE" (txt "|") SpUNCLEAR true;
  mkRow "PIPE_EQUAL" (txt "|=") SpUNCLEAR true;
  mkRow "PIPE_PIPE" (txt "||") SpUNCLEAR false;
  mkRow "BANG" (txt "!") SpUNCLEAR true;
  mkRow "TWIDDLE" (txt "~") SpSINGLE true;
  mkRow "EQUAL" (txt "=") SpUNCLEAR true;
  mkRow "EQUAL_EQUAL" (txt "==") SpUNCLEAR true;
  mkRow "NOT_EQUAL" (txt "!=") SpUNCLEAR true;
  mkRow "LESS_THAN" (txt "<") SpUNCLEAR true;
  mkRow "LESS_EQUAL" (txt "<=") SpUNCLEAR true;
  mkRow "GREATER_THAN" (txt ">") SpUNCLEAR true;
  mkRow "GREATER_EQUAL" (txt ">=") SpUNCLEAR true;
  mkRow "SHIFT_LEFT" (txt "<<") SpUNCLEAR true;
  mkRow "SHIFT_LEFT_EQUAL" (txt "<<=") SpUNCLEAR true;
  mkRow "SHIFT_RIGHT" (txt ">>") SpUNCLEAR true;
  mkRow "SHIFT_RIGHT_EQUAL" (txt ">>=") SpUNCLEAR true;
  mkRow "PLUS" (txt "+") SpUNCLEAR true;
  mkRow "PLUS_PLUS" (txt "++") SpUNCLEAR true;
  mkRow "PLUS_EQUAL" (txt "+=") SpUNCLEAR true;
  mkRow "MINUS" (txt "-") SpUNCLEAR true;
  mkRow "MINUS_MINUS" (txt "--") SpUNCLEAR true;
  mkRow "MINUS_EQUAL" (txt "-=") SpUNCLEAR true;
  mkRow "STAR" (txt "*") SpUNCLEAR true;
  mkRow "STAR_EQUAL" (txt "*=") SpUNCLEAR true;
  mkRow "STAR_STAR" (txt "**") SpUNCLEAR false;
  mkRow "SLASH" (txt "/") SpUNCLEAR true;
  mkRow "SLASH_EQUAL" (txt "/=") SpUNCLEAR true;
  mkRow "SLASH_SLASH" (txt "//") SpCOMMENT false;
  mkRow "SLASH_STAR" (txt "/*") SpCOMMENT false;
  mkRow "STAR_SLASH" (txt "*/") SpCOMMENT false;
  mkRow "STRUCTURED_COMMENT" (txt "StructuredComment") SpCOMMENT false;
  mkRow "HAT" (txt "^") SpUNCLEAR true;
  mkRow "HAT_EQUAL" (txt "^=") SpUNCLEAR true;
  mkRow "PERCENTSIGN" (txt "%") SpUNCLEAR true;
  mkRow "PERCENTSIGN_EQUAL" (txt "%=") SpUNCLEAR true;
  mkRow "BACKSLASH" ([92]) SpUNCLEAR false;
  mkRow "NUMBER_SIGNED" (txt "_SIGNED") SpHASDATA false;
  mkRow "NUMBER_UNSIGNED" (txt "_UNSIGNED") SpHASDATA false;
  mkRow "NUMBER_FLOAT" (txt "_FLOAT") SpHASDATA false;
  mkRow "IDENTIFIER" (txt "_IDENTIFIER") SpHASDATA false;
  mkRow "TYPE_IDENTIFIER" (txt "_TYPE") SpHASDATA false;
  mkRow "DQUOTED_STRING" (txt "_DOUBLEQUOTE") SpHASDATA false;
  mkRow "SQUOTED_STRING" (txt "_SINGLEQUOTE") SpHASDATA false;
  mkRow "EOF" ([255]) SpSINGLE false;
  mkRow "KW_RETURN" (txt "return") SpKEYWORD false;
  mkRow "KW_GOTO" (txt "goto") SpKEYWORD false;
  mkRow "KW_USE" (txt "use") SpKEYWORD false;
  mkRow "KW_LOAD" (txt "load") SpKEYWORD false;
  mkRow "KW_ULAM" (txt "ulam") SpKEYWORD false;
  mkRow "KW_IF" (txt "if") SpCTLKEYWORD false;
  mkRow "KW_ELSE" (txt "else") SpCTLKEYWORD false;
  mkRow "KW_WHILE" (txt "while") SpCTLKEYWORD false;
  mkRow "KW_FOR" (txt "for") SpCTLKEYWORD false;
  mkRow "KW_SWITCH" (txt "which") SpCTLKEYWORD false;
  mkRow "KW_CASE" (txt "case") SpKEYWORD false;
  mkRow "KW_DEFAULT" (txt "otherwise") SpKEYWORD false;
  mkRow "KW_BREAK" (txt "break") SpKEYWORD false;
  mkRow "KW_CONTINUE" (txt "continue") SpKEYWORD false;
  mkRow "KW_TYPE_VOID" (txt "Void") SpTYPEKEYWORD false;
  mkRow "KW_TYPE_INT" (txt "Int") SpTYPEKEYWORD false;
  mkRow "KW_TYPE_UNSIGNED" (txt "Unsigned") SpTYPEKEYWORD false;
  mkRow "KW_TYPE_BOOL" (txt "Bool") SpTYPEKEYWORD false;
  mkRow "KW_TYPE_UNARY" (txt "Unary") SpTYPEKEYWORD false;
  mkRow "KW_TYPE_BITS" (txt "Bits") SpTYPEKEYWORD false;
  mkRow "KW_TYPE_ATOM" (txt "Atom") SpTYPEKEYWORD false;
  mkRow "KW_TYPE_HOLDER" (txt "0Holder") SpTYPEKEYWORD false;
  mkRow "KW_LOCALDEF" (txt "local") SpKEYWORD false;
  mkRow "KW_TYPE_STRING" (txt "String") SpTYPEKEYWORD false;
  mkRow "KW_TYPEDEF" (txt "typedef") SpKEYWORD false;
  mkRow "KW_CONSTDEF" (txt "constant") SpKEYWORD false;
  mkRow "KW_PARAMETER" (txt "parameter") SpKEYWORD false;
  mkRow "KW_VIRTUAL" (txt "virtual") SpKEYWORD false;
  mkRow "KW_FLAG_VIRTUALOVERRIDE" (txt "@Override") SpFLAGKEYWORD false;
  mkRow "KW_FLAG_CONCRETECLASS" (txt "@Concrete") SpFLAGKEYWORD false;
  mkRow "KW_TRUE" (txt "true") SpKEYWORD false;
  mkRow "KW_FALSE" (txt "false") SpKEYWORD false;
  mkRow "KW_ELEMENT" (txt "element") SpKEYWORD false;
  mkRow "KW_QUARK" (txt "quark") SpKEYWORD false;
  mkRow "KW_QUARKUNION" (txt "union") SpKEYWORD false;
  mkRow "KW_TRANSIENT" (txt "transient") SpKEYWORD false;
  mkRow "KW_NATIVE" (txt "native") SpKEYWORD false;
  mkRow "ERROR_LOWLEVEL" (txt "_LOWLEVELERROR") SpERROR false;
  mkRow "KW_IS" (txt "is") SpKEYWORD false;
  mkRow "KW_HAS" (txt "has") SpDEPRECATED false;
  mkRow "KW_AS" (txt "as") SpKEYWORD false;
  mkRow "KW_SIZEOF" (txt "sizeof") SpKEYWORD false;
  mkRow "KW_MAXOF" (txt "maxof") SpKEYWORD false;
  mkRow "KW_MINOF" (txt "minof") SpKEYWORD false;
  mkRow "KW_CONSTANTOF" (txt "constantof") SpKEYWORD false;
  mkRow "KW_INSTANCEOF" (txt "instanceof") SpKEYWORD false;
  mkRow "KW_STORAGEOF" (txt "storageof") SpKEYWORD false;
  mkRow "KW_ATOMOF" (txt "atomof") SpKEYWORD false;
  mkRow "KW_LENGTHOF" (txt "lengthof") SpKEYWORD false;
  mkRow "KW_CLASSIDOF" (txt "classidof") SpKEYWORD false;
  mkRow "KW_POSOF" (txt "positionof") SpKEYWORD false;
  mkRow "KW_OPERATOR" (txt "operator") SpOPERATORKEYWORD false;
  mkRow "KW_SELF" (txt "self") SpKEYWORD false;
  mkRow "KW_TYPE_SELF" (txt "Self") SpTYPEKEYWORD false;
  mkRow "KW_SUPER" (txt "super") SpKEYWORD false;
  mkRow "KW_TYPE_SUPER" (txt "Super") SpTYPEKEYWORD false;
  mkRow "KW_FLAG_INSERTFILE" (txt "__FILE__") SpFLAGKEYWORD false;
  mkRow "KW_FLAG_INSERTLINE" (txt "__LINE__") SpFLAGKEYWORD false;
  mkRow "KW_FLAG_INSERTFUNC" (txt "__FUNC__") SpFLAGKEYWORD false;
  mkRow "KW_FLAG_INSERTPATH" (txt "__FILEPATH__") SpFLAGKEYWORD false;
  mkRow "KW_FLAG_INSERTCLASS" (txt "__CLASS__") SpFLAGKEYWORD false;
  mkRow "KW_FLAG_INSERTCLASSSIGNATURE" (txt "__CLASS_SIGNATURE__") SpFLAGKEYWORD false;
  mkRow "KW_FLAG_INSERTCLASSNAMESIMPLE" (txt "__CLASS_SIMPLE__") SpFLAGKEYWORD false;
  mkRow "KW_FLAG_INSERTCLASSNAMEPRETTY" (txt "__CLASS_PRETTY__") SpFLAGKEYWORD false;
  mkRow "KW_FLAG_INSERTCLASSNAMEMANGLED" (txt "__CLASS_MANGLED__") SpFLAGKEYWORD false
].

(* std::string::c_str as strcmp sees it: up to the first NUL *)
Fixpoint cstr (a : text) : text := match a with [] => [] | c :: r => if c =? 0 then [] else c :: cstr r end.

(* Token.cpp:112-124, the row standing for the type; None is TOK_LAST_ONE *)
Fixpoint lookup (t : list row) (a : text) : option row :=
  match t with [] => None | r :: q => if text_eqb (r_str r) a then Some r else lookup q a end.
Definition getTokenType (a : text) : option row := lookup tok_table (cstr a).

(* EXTERNAL: isspace, isalpha, isdigit, isxdigit in the C locale *)
Definition isspace (c : N) : bool := ((9 <=? c) && (c <=? 13)) || (c =? 32).
Definition isupper (c : N) : bool := (65 <=? c) && (c <=? 90).
Definition islower (c : N) : bool := (97 <=? c) && (c <=? 122).
Definition isalpha (c : N) : bool := isupper c || islower c.
Definition isdigit (c : N) : bool := (48 <=? c) && (c <=? 57).
Definition isxdigit (c : N) : bool := isdigit c || ((65 <=? c) && (c <=? 70)) || ((97 <=? c) && (c <=? 102)).

Inductive token := Tok (type : string) (data : option text) | TokError.

(* SourceStream::read: None is -1 *)
Definition read (s : text) : option N * text := match s with [] => (None, []) | c :: r => (Some c, r) end.
(* putting back what was read *)
Definition unread (c : option N) (s : text) : text := match c with Some c => c :: s | None => s end.

Fixpoint span (p : N -> bool) (s : text) : text * text :=
  match s with
  | [] => ([], [])
  | c :: r => if p c then let '(a, b) := span p r in (c :: a, b) else ([], s)
  end.

(* ---- comments ---- *)
(* Lexer.cpp:983-1005 *)
Fixpoint eatBlockComment (s : text) : option N * text :=
  match s with
  | [] => (None, [])
  | c :: r =>
    if c =? 42 then
      match r with
      | [] => (None, [])
      | d :: r' => if d =? 47 then read r' else eatBlockComment r
      end
    else eatBlockComment r
  end.

(* Lexer.cpp:1007-1015 *)
Fixpoint eatLineComment (s : text) : option N * text :=
  match s with [] => (None, []) | c :: r => if c =? 10 then (Some c, r) else eatLineComment r end.

(* Lexer.cpp:1017-1055: also the text of the comment, None if it does not end *)
Fixpoint structuredComment (s : text) (acc : text) : option N * text * option text :=
  match s with
  | [] => (None, [], None)
  | c :: r =>
    if c =? 42 then
      match r with
      | [] => (None, [], None)
      | d :: r' => if d =? 47 then (read r', Some acc) else structuredComment r (acc ++ [c])
      end
    else structuredComment r (acc ++ [c])
  end.

(* what eatComment leaves: the byte returned, the input, whether a byte read after it has been put back already (or the
   end was reached, so nothing can be put back), and the structured comment seen so far *)
Record eaten := mkEat { e_c : option N; e_rest : text; e_pend : bool; e_sc : option (option text) }.

(* Lexer.cpp:942-981 *)
Definition eatComment (s : text) (sc : option (option text)) : eaten :=
  match s with
  | [] => mkEat None [] false sc
  | c :: r =>
    if c =? 47 then
      match r with
      | [] => mkEat (Some 47) [] true sc
      | d :: r' =>
        if d =? 47 then let '(c', q) := eatLineComment r' in mkEat c' q false sc
        else if d =? 42 then
          match r' with
          | e :: r2 =>
            if e =? 42 then
              match r2 with
              | f :: r3 =>
                if f =? 47 then let '(c', q) := read r3 in mkEat c' q false sc
                else let '(c', q, t) := structuredComment r2 [] in mkEat c' q false (Some t)
              | [] => mkEat None [] false (Some None)
              end
            else let '(c', q) := eatBlockComment r' in mkEat c' q false sc
          | [] => mkEat None [] false sc
          end
        else mkEat (Some 47) r true sc
      end
    else mkEat (Some c) r false sc
  end.

(* Lexer.cpp:65-69 *)
Fixpoint skip_fuel (fuel : nat) (s : text) (sc : option (option text)) : eaten :=
  let e := eatComment s sc in
  match fuel with
  | O => e
  | S f => match e_c e with
           | Some c => if isspace c then skip_fuel f (e_rest e) (e_sc e) else e
           | None => e
           end
  end.
(* each turn takes a byte: the length of the input is enough *)
Definition skip (s : text) : eaten := skip_fuel (List.length s) s None.

(* ---- operators ---- *)
(* Lexer.cpp:506-605: the string grown so far, the type found or None for an error, and the input *)
Definition makeOperatorToken (astring : text) (s : text) : text * option row * text :=
  let '(c, r) := read s in
  let simple s' := (astring, getTokenType astring, s') in
  match c with
  | Some c =>
    let a2 := astring ++ [c] in
    match getTokenType a2 with
    | Some ty =>
      if String.eqb (r_name ty) "ELLIPSIS" then
        match r with
        | c3 :: r' => if c3 =? 46 then (a2 ++ [c3], Some ty, r') else (a2 ++ [c3], None, r)
        | [] => (a2, None, [])
        end
      else if String.eqb (r_name ty) "SHIFT_LEFT" || String.eqb (r_name ty) "SHIFT_RIGHT" then
        match r with
        | c3 :: r' => if c3 =? 61 then (a2 ++ [c3], getTokenType (a2 ++ [c3]), r') else (a2, Some ty, r)
        | [] => (a2, None, [])
        end
      else (a2, Some ty, r)
    | None =>
      (* astring.erase(1) *)
      let a1 := firstn 1 a2 in (a1, getTokenType a1, s)
    end
  | None => simple []
  end.

(* ---- words ---- *)
Definition wordchar (c : N) : bool := isalpha c || isdigit c || (c =? 95).
Definition MAX_IDENTIFIER_LENGTH : N := 255.

(* Token.cpp:184-198: "_operator" and the hex codes of the operator's characters *)
Definition operatorName (ty : row) : option text :=
  if r_opol ty then Some (txt "_operator" ++ flat_map hex (r_str ty)) else None.

(* Lexer.cpp:158-258. aname is the first byte *)
Definition makeWordToken (aname : text) (s : text) : token * text :=
  let '(w, r) := span wordchar s in
  let aname := aname ++ w in
  let identifier :=
    if MAX_IDENTIFIER_LENGTH <? N.of_nat (List.length aname) then TokError
    else if isupper (hd 0 aname) then Tok "TYPE_IDENTIFIER" (Some aname) else Tok "IDENTIFIER" (Some aname) in
  match getTokenType aname with
  | Some ty =>
    match r_sp ty with
    | SpKEYWORD | SpTYPEKEYWORD | SpCTLKEYWORD => (Tok (r_name ty) None, r)
    | SpOPERATORKEYWORD =>
      match makeOperatorToken [] r with
      | (op1, Some _, r1) =>
        match makeOperatorToken op1 r1 with
        | (_, Some ty2, r2) =>
          match operatorName ty2 with Some n => (Tok "IDENTIFIER" (Some n), r2) | None => (TokError, r2) end
        | (_, None, r2) => (TokError, r2)
        end
      | (_, None, r1) => (TokError, r1)
      end
    | _ => (TokError, r)
    end
  | None => (identifier, r)
  end.

(* ---- numbers ---- *)
Definition numchar (c : N) : bool := isxdigit c || (c =? 46).

(* the flags of Lexer.cpp:264-269 *)
Record nflags := mkNf { nf_float : bool; nf_uns : bool; nf_oct : bool; nf_hex : bool; nf_bin : bool; nf_bad : bool }.
Definition nf0 : nflags := mkNf false false false false false false.

(* Lexer.cpp:273-297; a is the first character, c the second *)
Definition nf_second (a c : N) : nflags :=
  if a =? 48 then
    if (c =? 120) || (c =? 88) then mkNf false true false true false false
    else if (c =? 98) || (c =? 66) then mkNf false true false false true false
    else if c =? 46 then mkNf true true false false false false
    else if c <? 56 then mkNf false true true false false false
    else mkNf false true false false false true
  else if c =? 46 then mkNf true false false false false false
  else if negb (isdigit c) then mkNf false false false false false true
  else nf0.

(* Lexer.cpp:302-319, one turn; (u8)(c - '0') *)
Definition nf_next (f : nflags) (c : N) : nflags :=
  let fl := nf_float f || (c =? 46) in
  let anum := (c + 208) mod 256 in
  let bad := if nf_oct f && (7 <? anum) then true
             else if nf_bin f && (1 <? anum) then true
             else if negb (nf_hex f) && negb (isdigit c) then true else nf_bad f in
  mkNf fl (nf_uns f) (nf_oct f) (nf_hex f) (nf_bin f) bad.

(* Lexer.cpp:261-359; a is the first byte *)
Definition makeNumberToken (a : N) (s : text) : token * text :=
  let '(f, second, s1) :=
    match s with
    | c :: r => if isxdigit c || (c =? 120) || (c =? 88) || (c =? 46) then (nf_second a c, [c], r) else (nf0, [], s)
    | [] => (nf0, [], [])
    end in
  let '(more, s2) := span numchar s1 in
  let f := fold_left nf_next more f in
  let '(u, s3, uns) :=
    match s2 with
    | c :: r => if (c =? 117) || (c =? 85) then ([c], r, true) else ([], s2, nf_uns f)
    | [] => ([], [], nf_uns f)
    end in
  let anumber := a :: second ++ more ++ u in
  if nf_bad f then (TokError, s3)
  else if nf_float f then (Tok "NUMBER_FLOAT" (Some anumber), s3)
  else if uns then (Tok "NUMBER_UNSIGNED" (Some anumber), s3)
  else (Tok "NUMBER_SIGNED" (Some anumber), s3).

(* ---- flags ---- *)
(* Lexer.cpp:362-402; Token::isUpper of a char *)
Definition makeFlagToken (s : text) : token * text :=
  match s with
  | [] => (TokError, [])
  | c :: r =>
    if isupper c then
      let '(w, q) := span wordchar s in
      match getTokenType (64 :: w) with
      | Some ty => if special_eqb (r_sp ty) SpFLAGKEYWORD then (Tok (r_name ty) None, q) else (TokError, q)
      | None => (TokError, q)
      end
    else if isalpha c then (TokError, s) else (TokError, r)
  end.

(* Lexer.cpp:405-501 *)
Definition makeSubstituteToken (s : text) : token * text :=
  match s with
  | [] => (TokError, [])
  | c :: r =>
    if c =? 95 then
      let '(w, q) := span (fun c => isupper c || (c =? 95)) s in
      match getTokenType (95 :: w) with
      | Some ty => if special_eqb (r_sp ty) SpFLAGKEYWORD then (Tok (r_name ty) None, q) else (TokError, q)
      | None => (TokError, q)
      end
    else (TokError, r)
  end.

(* ---- quotes ---- *)
Definition isoctal (c : N) : bool := (48 <=? c) && (c <? 56).

(* Lexer.cpp:795-832: n digits are still wanted; None is an error *)
Fixpoint octalLoop (n : nat) (s : text) (total count : N) : option (N * N) * text :=
  match n with
  | O => (Some (total, count), s)
  | S n' => match s with
            | [] => (None, [])
            | c :: r => if isoctal c then octalLoop n' r (total * 8 + (c - 48)) (count + 1) else (Some (total, count), s)
            end
  end.
Definition formatOctalConstant (s : text) : option N * text :=
  match octalLoop 3 s 0 0 with
  | (Some (total, count), r) => (if count =? 0 then None else if total <=? 255 then Some total else None, r)
  | (None, r) => (None, r)
  end.

Definition hexval (c : N) : N := if isdigit c then c - 48 else if c <? 97 then c - 55 else c - 87.
(* Lexer.cpp:834-917 *)
Fixpoint hexLoop (n : nat) (s : text) (total count : N) : option (N * N) * text :=
  match n with
  | O => (Some (total, count), s)
  | S n' => match s with
            | [] => (None, [])
            | c :: r => if isxdigit c then hexLoop n' r (total * 16 + hexval c) (count + 1) else (Some (total, count), s)
            end
  end.
Definition formatHexConstant (s : text) : option N * text :=
  match hexLoop 2 s 0 0 with
  | (Some (total, count), r) => (if count =? 0 then None else if total <=? 255 then Some total else None, r)
  | (None, r) => (None, r)
  end.

(* Lexer.cpp:693-793; None is an error *)
Definition nextByte (s : text) : option N * text :=
  match s with
  | [] => (None, [])
  | c :: r =>
    if c =? 92 then
      match r with
      | [] => (None, [])
      | d :: q =>
        if d =? 97 then (Some 7, q) else if d =? 98 then (Some 8, q) else if d =? 116 then (Some 9, q)
        else if d =? 110 then (Some 10, q) else if d =? 118 then (Some 11, q) else if d =? 102 then (Some 12, q)
        else if d =? 114 then (Some 13, q) else if d =? 34 then (Some 34, q) else if d =? 39 then (Some 39, q)
        else if d =? 92 then (Some 92, q)
        else if isoctal d then formatOctalConstant r
        else if (d =? 120) || (d =? 88) then formatHexConstant q
        else (Some d, q)
      end
    else (Some c, r)
  end.

(* Lexer.cpp:616-634; each turn takes a byte *)
Fixpoint dquote_fuel (fuel : nat) (s : text) (acc : text) : option text * text :=
  match fuel with
  | O => (None, s)
  | S f =>
    match s with
    | [] => (None, [])
    | c :: r =>
      if c =? 34 then (Some acc, r)
      else match nextByte s with
           | (Some b, q) => dquote_fuel f q (acc ++ [b])
           | (None, q) => (None, q)
           end
    end
  end.

(* Lexer.cpp:609-648 with formatUserString (919-940): the token's data is the string itself; its stored form is
   StringPoolModel.format_user *)
Definition makeDoubleQuoteToken (s : text) : token * text :=
  match dquote_fuel (S (List.length s)) s [] with
  | (Some b, r) => (match format_user b with Some _ => Tok "DQUOTED_STRING" (Some b) | None => TokError end, r)
  | (None, r) => (TokError, r)
  end.

(* Lexer.cpp:650-691 *)
Definition makeSingleQuoteToken (s : text) : token * text :=
  let close b s' :=
    match s' with
    | c :: r => if c =? 39 then (Tok "SQUOTED_STRING" (Some b), r) else (TokError, s')
    | [] => (TokError, [])
    end in
  match s with
  | [] => close [] []
  | c :: r =>
    if c =? 39 then (TokError, r)
    else match nextByte s with
         | (Some b, q) => close [b] q
         | (None, q) => (TokError, q)
         end
  end.

(* ---- Lexer.cpp:54-149 ---- *)
Definition getNextToken (s : text) : token * text :=
  let e := skip s in
  match e_sc e with
  | Some t =>
    (match t with Some d => Tok "STRUCTURED_COMMENT" (Some d) | None => Tok "ERROR_LOWLEVEL" None end,
     if e_pend e then e_rest e else unread (e_c e) (e_rest e))
  | None =>
    (* (char) -1 is \377 *)
    let c := match e_c e with Some c => c | None => 255 end in
    let unclear :=
      match e_c e with
      | None => (TokError, [])
      | Some c =>
        if isalpha c then makeWordToken [c] (e_rest e)
        else if isdigit c then makeNumberToken c (e_rest e)
        else if c =? 64 then makeFlagToken (e_rest e)
        else if c =? 95 then makeSubstituteToken (e_rest e)
        else match makeOperatorToken [c] (e_rest e) with
             | (_, Some ty, r) => (Tok (r_name ty) None, r)
             | (_, None, r) => (TokError, r)
             end
      end in
    match getTokenType [c] with
    | Some ty =>
      match r_sp ty with
      | SpSINGLE => (Tok (r_name ty) None, e_rest e)
      | SpDQUOTE => makeDoubleQuoteToken (e_rest e)
      | SpSQUOTE => makeSingleQuoteToken (e_rest e)
      | _ => unclear
      end
    | None => unclear
    end
  end.

(* n tokens *)
Fixpoint getTokens (n : nat) (s : text) : list token * text :=
  match n with
  | O => ([], s)
  | S n' => let '(t, r) := getNextToken s in let '(ts, q) := getTokens n' r in (t :: ts, q)
  end.
