(* LexerSpec.v: what tokens, comments and literals are, said without the lexer's functions. *)
From Coq Require Import String List NArith ZArith Bool.
From Verif Require Import Base.
Import ListNotations.
Open Scope N_scope.

(* the operators and punctuation of the language: spelling and name *)
Definition operators : list (text * string) :=
  [(txt "{", "OPEN_CURLY"); (txt "}", "CLOSE_CURLY"); (txt "(", "OPEN_PAREN"); (txt ")", "CLOSE_PAREN");
   (txt "[", "OPEN_SQUARE"); (txt "]", "CLOSE_SQUARE"); (txt "[]", "SQUARE"); (txt ";", "SEMICOLON");
   (txt ":", "COLON"); (txt ",", "COMMA"); (txt "?", "QUESTION"); (txt "`", "BACKTIC"); (txt ".", "DOT");
   (txt "...", "ELLIPSIS"); (txt "&", "AMP"); (txt "&=", "AMP_EQUAL"); (txt "&&", "AMP_AMP"); (txt "|", "PIPE");
   (txt "|=", "PIPE_EQUAL"); (txt "||", "PIPE_PIPE"); (txt "!", "BANG"); (txt "~", "TWIDDLE"); (txt "=", "EQUAL");
   (txt "==", "EQUAL_EQUAL"); (txt "!=", "NOT_EQUAL"); (txt "<", "LESS_THAN"); (txt "<=", "LESS_EQUAL");
   (txt ">", "GREATER_THAN"); (txt ">=", "GREATER_EQUAL"); (txt "<<", "SHIFT_LEFT"); (txt "<<=", "SHIFT_LEFT_EQUAL");
   (txt ">>", "SHIFT_RIGHT"); (txt ">>=", "SHIFT_RIGHT_EQUAL"); (txt "+", "PLUS"); (txt "++", "PLUS_PLUS");
   (txt "+=", "PLUS_EQUAL"); (txt "-", "MINUS"); (txt "--", "MINUS_MINUS"); (txt "-=", "MINUS_EQUAL");
   (txt "*", "STAR"); (txt "*=", "STAR_EQUAL"); (txt "**", "STAR_STAR"); (txt "/", "SLASH"); (txt "/=", "SLASH_EQUAL");
   (txt "^", "HAT"); (txt "^=", "HAT_EQUAL"); (txt "%", "PERCENTSIGN"); (txt "%=", "PERCENTSIGN_EQUAL");
   ([92], "BACKSLASH")]%string.

Definition prefix (w s : text) : Prop := exists r, s = w ++ r.

(* the longest operator at the front of the input *)
Definition longest_operator (s w : text) (name : string) : Prop :=
  In (w, name) operators /\ prefix w s /\
  forall w' n', In (w', n') operators -> prefix w' s -> (List.length w' <= List.length w)%nat.

(* the reserved words and their names *)
Definition keywords : list (text * string) :=
  [(txt "return", "KW_RETURN"); (txt "goto", "KW_GOTO"); (txt "use", "KW_USE"); (txt "load", "KW_LOAD");
   (txt "ulam", "KW_ULAM"); (txt "if", "KW_IF"); (txt "else", "KW_ELSE"); (txt "while", "KW_WHILE");
   (txt "for", "KW_FOR"); (txt "which", "KW_SWITCH"); (txt "case", "KW_CASE"); (txt "otherwise", "KW_DEFAULT");
   (txt "break", "KW_BREAK"); (txt "continue", "KW_CONTINUE"); (txt "Void", "KW_TYPE_VOID"); (txt "Int", "KW_TYPE_INT");
   (txt "Unsigned", "KW_TYPE_UNSIGNED"); (txt "Bool", "KW_TYPE_BOOL"); (txt "Unary", "KW_TYPE_UNARY");
   (txt "Bits", "KW_TYPE_BITS"); (txt "Atom", "KW_TYPE_ATOM"); (txt "local", "KW_LOCALDEF");
   (txt "String", "KW_TYPE_STRING"); (txt "typedef", "KW_TYPEDEF"); (txt "constant", "KW_CONSTDEF");
   (txt "parameter", "KW_PARAMETER"); (txt "virtual", "KW_VIRTUAL"); (txt "true", "KW_TRUE"); (txt "false", "KW_FALSE");
   (txt "element", "KW_ELEMENT"); (txt "quark", "KW_QUARK"); (txt "union", "KW_QUARKUNION");
   (txt "transient", "KW_TRANSIENT"); (txt "native", "KW_NATIVE"); (txt "is", "KW_IS"); (txt "as", "KW_AS");
   (txt "sizeof", "KW_SIZEOF"); (txt "maxof", "KW_MAXOF"); (txt "minof", "KW_MINOF");
   (txt "constantof", "KW_CONSTANTOF"); (txt "instanceof", "KW_INSTANCEOF"); (txt "storageof", "KW_STORAGEOF");
   (txt "atomof", "KW_ATOMOF"); (txt "lengthof", "KW_LENGTHOF"); (txt "classidof", "KW_CLASSIDOF");
   (txt "positionof", "KW_POSOF"); (txt "self", "KW_SELF"); (txt "Self", "KW_TYPE_SELF"); (txt "super", "KW_SUPER");
   (txt "Super", "KW_TYPE_SUPER")]%string.
(* the words that are neither: "operator" starts an operator's name, "has" is no longer in the language *)
Definition special_words : list text := [txt "operator"; txt "has"].

Definition upper_case (c : N) : Prop := 65 <= c <= 90.
Definition lower_case (c : N) : Prop := 97 <= c <= 122.
Definition digit (c : N) : Prop := 48 <= c <= 57.
Definition letter (c : N) : Prop := upper_case c \/ lower_case c.
Definition word_char (c : N) : Prop := letter c \/ digit c \/ c = 95.
(* a word: a letter, then letters, digits and underscores *)
Definition word (w : text) : Prop := exists c r, w = c :: r /\ letter c /\ Forall word_char r.
(* what follows does not go on with it *)
Definition ends (P : N -> Prop) (rest : text) : Prop := match rest with [] => True | c :: _ => ~ P c end.

(* the white space and comments that may stand between tokens. A block comment that starts with two stars is a
   structured comment, which is a token *)
Definition white (c : N) : Prop := 9 <= c <= 13 \/ c = 32.
Definition no_close (body : text) : Prop := forall a b, body ++ [42] <> a ++ [42; 47] ++ b.
Definition plain_body (body : text) : Prop := no_close body /\ (body = [] \/ hd 0 body <> 42).
Inductive separator : text -> Prop :=
| sep_nil : separator []
| sep_white c s : white c -> separator s -> separator (c :: s)
| sep_line body s : ~ In 10 body -> separator s -> separator (txt "//" ++ body ++ [10] ++ s)
| sep_block body s : plain_body body -> separator s -> separator (txt "/*" ++ body ++ txt "*/" ++ s).

(* ---- literals ---- *)
Definition octal_digit (c : N) : Prop := 48 <= c <= 55.
Definition hex_digit (c : N) : Prop := digit c \/ 65 <= c <= 70 \/ 97 <= c <= 102.
Definition hex_value (c : N) : N := if c <? 65 then c - 48 else if c <? 97 then c - 55 else c - 87.

(* the letters that stand for a control character after a backslash *)
Definition escapes : list (N * N) := [(97, 7); (98, 8); (116, 9); (110, 10); (118, 11); (102, 12); (114, 13); (34, 34); (39, 39); (92, 92)].

(* the text between double quotes and the bytes it denotes. An octal or hexadecimal escape is as long as it can be *)
Inductive denotes : text -> text -> Prop :=
| d_nil : denotes [] []
| d_char c s b : c <> 34 -> c <> 92 -> denotes s b -> denotes (c :: s) (c :: b)
| d_escape c v s b : In (c, v) escapes -> denotes s b -> denotes (92 :: c :: s) (v :: b)
| d_other c s b : ~ In c (map fst escapes) -> ~ octal_digit c -> c <> 120 -> c <> 88 -> denotes s b ->
    denotes (92 :: c :: s) (c :: b)
| d_octal3 x y z s b : octal_digit x -> octal_digit y -> octal_digit z -> (x - 48) * 64 + (y - 48) * 8 + (z - 48) <= 255 ->
    denotes s b -> denotes (92 :: x :: y :: z :: s) ((x - 48) * 64 + (y - 48) * 8 + (z - 48) :: b)
| d_octal2 x y s b : octal_digit x -> octal_digit y -> ends octal_digit s ->
    denotes s b -> denotes (92 :: x :: y :: s) ((x - 48) * 8 + (y - 48) :: b)
| d_octal1 x s b : octal_digit x -> ends octal_digit s -> denotes s b -> denotes (92 :: x :: s) (x - 48 :: b)
| d_hex2 x h1 h2 s b : x = 120 \/ x = 88 -> hex_digit h1 -> hex_digit h2 ->
    denotes s b -> denotes (92 :: x :: h1 :: h2 :: s) (hex_value h1 * 16 + hex_value h2 :: b)
| d_hex1 x h s b : x = 120 \/ x = 88 -> hex_digit h -> ends hex_digit s ->
    denotes s b -> denotes (92 :: x :: h :: s) (hex_value h :: b).

(* number literals: decimal, octal, hexadecimal, binary; whether it is unsigned; with an optional u at the end *)
Inductive base_number : text -> bool -> Prop :=
| n_decimal c r : 49 <= c <= 57 -> Forall digit r -> base_number (c :: r) false
| n_zero : base_number [48] false
| n_octal c r : octal_digit c -> Forall octal_digit r -> base_number (48 :: c :: r) true
| n_hex x c r : x = 120 \/ x = 88 -> hex_digit c -> Forall hex_digit r -> base_number (48 :: x :: c :: r) true
| n_binary x c r : x = 98 \/ x = 66 -> c = 48 \/ c = 49 -> Forall (fun d => d = 48 \/ d = 49) r ->
    base_number (48 :: x :: c :: r) true.
Definition number (s : text) (uns : bool) : Prop :=
  base_number s uns \/ exists s' b u, base_number s' b /\ (u = 117 \/ u = 85) /\ s = s' ++ [u] /\ uns = true.
(* what may follow a number: nothing that could belong to one *)
Definition number_char (c : N) : Prop := hex_digit c \/ In c [46; 117; 85; 120; 88].

(* flags after @, and the words in underscores that stand for a text, without the first underscore *)
Definition flag_words : list (text * string) := [(txt "Override", "KW_FLAG_VIRTUALOVERRIDE"%string); (txt "Concrete", "KW_FLAG_CONCRETECLASS"%string)].
Definition insert_words : list (text * string) :=
  [(txt "_FILE__", "KW_FLAG_INSERTFILE"%string); (txt "_LINE__", "KW_FLAG_INSERTLINE"%string); (txt "_FUNC__", "KW_FLAG_INSERTFUNC"%string);
   (txt "_FILEPATH__", "KW_FLAG_INSERTPATH"%string); (txt "_CLASS__", "KW_FLAG_INSERTCLASS"%string); (txt "_CLASS_SIGNATURE__", "KW_FLAG_INSERTCLASSSIGNATURE"%string);
   (txt "_CLASS_SIMPLE__", "KW_FLAG_INSERTCLASSNAMESIMPLE"%string); (txt "_CLASS_PRETTY__", "KW_FLAG_INSERTCLASSNAMEPRETTY"%string);
   (txt "_CLASS_MANGLED__", "KW_FLAG_INSERTCLASSNAMEMANGLED"%string)].
Fixpoint word_token (ws : list (text * string)) (w : text) : option string :=
  match ws with [] => None | (a, n) :: r => if text_eqb a w then Some n else word_token r w end.
