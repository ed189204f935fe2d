(* FileModel.v: files of the compiler.
   Transcribes src/ulam/File.cpp:11-64,77-82,92-101, src/ulam/FileString.cpp:9-76, src/ulam/FileStdio.cpp:7-52, src/ulam/FileManagerString.cpp:19-117
   and src/ulam/FileManagerStdio.cpp:21-48 (the first directory; the others are C106's).
   Simplifications: one file is open at a time on a path, and what it holds goes back to the map or the disk when it is closed; char is signed.
   EXTERNAL: the C library.  fgetc gives the next byte or EOF, fputc writes the byte (unsigned char) c and returns it (no disk is full), fopen w
   truncates or creates, a writes at the end and creates, r and r+ start at the beginning and need the file; sprintf writes numbers in decimal or
   hexadecimal without leading zeros.  EPERM is 1, EACCES 13. *)
From Coq Require Import String List NArith ZArith Bool.
From Verif Require Import Base.
Import ListNotations.
Open Scope N_scope.

(* include/FileManager.h:51 *)
Inductive mode := READ | WRITE | APPEND | EXTEND.
Inductive kind := KString | KStdio.
(* a File: kind, m_mode, open or not, m_at or the position in the FILE, what it holds, m_lastRead if m_haveLastRead *)
Record file := mkFile { f_kind : kind; f_mode : mode; f_open : bool; f_at : nat; f_data : text; f_last : option Z }.
Definition EACCES : Z := 13.
Definition EPERM : Z := 1.
Definition is_read (m : mode) : bool := match m with READ => true | _ => false end.

(* FileString.cpp:22-41, FileStdio.cpp:16-23 *)
Definition read (f : file) : file * Z :=
  if negb (is_read (f_mode f)) then (f, (- EACCES)%Z)
  else if negb (f_open f) then (f, (- EPERM)%Z)
  else match nth_error (f_data f) (f_at f) with
       | None => (f, (-1)%Z)
       | Some b => (mkFile (f_kind f) (f_mode f) (f_open f) (S (f_at f)) (f_data f) (f_last f), Z.of_N b)
       end.
(* File.cpp:11-19 *)
Definition peek (f : file) : file * Z :=
  match f_last f with
  | Some z => (f, z)
  | None => let '(f1, z) := read f in (mkFile (f_kind f1) (f_mode f1) (f_open f1) (f_at f1) (f_data f1) (Some z), z)
  end.
(* File.cpp:21-26 *)
Definition consume (f : file) : file * Z :=
  let '(f1, z) := peek f in (mkFile (f_kind f1) (f_mode f1) (f_open f1) (f_at f1) (f_data f1) None, z).

(* the byte (unsigned char) c *)
Definition uchar (c : Z) : N := Z.to_N (c mod 256).
(* FileString.cpp:44-61, FileStdio.cpp:26-36 *)
Definition write (f : file) (c : Z) : file * Z :=
  if is_read (f_mode f) then (f, (- EACCES)%Z)
  else if negb (f_open f) then (f, (- EPERM)%Z)
  else match f_kind f with
       | KString => (mkFile (f_kind f) (f_mode f) (f_open f) (f_at f) (f_data f ++ [uchar c]) (f_last f), 0%Z)
       | KStdio =>
         let f1 := match f_mode f with
                   | APPEND => mkFile (f_kind f) (f_mode f) (f_open f) (f_at f) (f_data f ++ [uchar c]) (f_last f)
                   | _ => mkFile (f_kind f) (f_mode f) (f_open f) (S (f_at f)) (firstn (f_at f) (f_data f) ++ [uchar c] ++ skipn (S (f_at f)) (f_data f)) (f_last f)
                   end in
         let r := Z.of_N (uchar c) in
         (f1, if (r =? c)%Z then 0%Z else r)
       end.
(* a char of a C string *)
Definition schar (b : N) : Z := if b <? 128 then Z.of_N b else (Z.of_N b - 256)%Z.
(* File.cpp:28-39; the end of the list is the zero behind the text *)
Fixpoint writeText (f : file) (s : text) : file * Z :=
  match s with
  | [] => (f, 0%Z)
  | b :: s1 =>
    if b =? 0 then (f, 0%Z) else
    let '(f1, r) := write f (schar b) in
    if negb (r =? 0)%Z then (f1, r) else writeText f1 s1
  end.
(* FileString.cpp:64-76, FileStdio.cpp:39-52 *)
Definition close (f : file) : file * Z :=
  if f_open f then (mkFile (f_kind f) (f_mode f) false (f_at f) (f_data f) (f_last f), 0%Z) else (f, (-1)%Z).

(* sprintf %d *)
Definition sdec (z : Z) : text := if (z <? 0)%Z then 45 :: dec (Z.to_N (- z)) else dec (Z.to_N z).
(* a u32 given to %i, which takes an int *)
Definition as_int (n : N) : Z := if n <? 2147483648 then Z.of_N n else (Z.of_N n - 4294967296)%Z.
(* File.cpp:41-46, 48-57: the text put in tmp *)
Definition decimalText (data : Z) : text := sdec data.
(* File.cpp:59-64 *)
Definition unsignedText (data : N) : text := sdec (as_int data).
(* File.cpp:66-75 *)
Definition unsignedLongText (data : N) : text := dec data.
(* File.cpp:77-82 *)
Definition hexText (data : N) : text := txt "0x" ++ hex data.
(* the sizes of tmp: File.cpp:43,54,61,72,79 *)
Definition tmp32 : nat := 35.
Definition tmp64 : nat := 69.
Definition tmphex : nat := 37.
(* File.cpp:92-101: the answers but the last are lost *)
Definition writeTaggedEnd (f : file) (filename : text) (lineno : Z) : file * Z :=
  let f1 := fst (writeText f (txt " //gcnl:")) in
  let f2 := fst (writeText f1 filename) in
  let f3 := fst (writeText f2 (txt ":")) in
  let f4 := fst (writeText f3 (decimalText lineno)) in
  writeText f4 [10].

(* ---- the file managers; the files are a map from full paths to contents ---- *)
Definition files := text -> option text.
Definition put (m : files) (p d : text) : files := fun q => if text_eqb p q then Some d else m q.
(* FileManagerString.cpp:26-34, FileManagerStdio.cpp:27-35 *)
Definition fullpath (dir path : text) : text := match path with 47 :: _ => path | _ => dir ++ [47] ++ path end.
(* FileManagerString.cpp:36-79; None is NULL *)
Definition openString (dir : text) (m : files) (path : text) (md : mode) : files * option file :=
  let full := fullpath dir path in
  match m full with
  | None => match md with
            | READ | EXTEND => (m, None)
            | WRITE | APPEND => (put m full [], Some (mkFile KString md true 0 [] None))
            end
  | Some d => let d' := match md with WRITE => [] | _ => d end in (put m full d', Some (mkFile KString md true 0 d' None))
  end.
(* the file goes back to the map *)
Definition store (dir : text) (m : files) (path : text) (f : file) : files := put m (fullpath dir path) (f_data f).
(* FileManagerString.cpp:83-98 *)
Definition add (dir : text) (m : files) (path data : text) : files * bool :=
  match openString dir m path WRITE with
  | (m1, None) => (m1, false)
  | (m1, Some f) => let '(f1, ok) := writeText f data in (store dir m1 path (fst (close f1)), negb (ok <? 0)%Z)
  end.
(* FileManagerString.cpp:101-117: operator[] makes an entry if there is none *)
Definition get (dir : text) (m : files) (path : text) : files * text * bool :=
  let full := fullpath dir path in
  match m full with Some d => (m, d, true) | None => (put m full [], [], true) end.
(* FileManagerStdio.cpp:21-48 with the modes of :8 *)
Definition openStdio (dir : text) (m : files) (path : text) (md : mode) : files * option file :=
  let full := fullpath dir path in
  match m full, md with
  | None, (READ | EXTEND) => (m, None)
  | None, (WRITE | APPEND) => (put m full [], Some (mkFile KStdio md true 0 [] None))
  | Some d, WRITE => (put m full [], Some (mkFile KStdio md true 0 [] None))
  | Some d, APPEND => (m, Some (mkFile KStdio md true (length d) d None))
  | Some d, (READ | EXTEND) => (m, Some (mkFile KStdio md true 0 d None))
  end.
