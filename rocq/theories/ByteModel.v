(* ByteModel.v: byte streams of the standard library.
   Transcribes share/ulam/stdlib/ByteStreamArray.ulam:4-53, ByteStreamString.ulam:4-35 and the printing of ByteStream.ulam:54-135.
   A byte (ASCII) is an Unsigned(8), a number below 256.  Simplifications: a writer is a function from its state and a byte to its new
   state, for printing (what writeByte returns is not looked at there); mFail.fail ends the event: None.  Left out: the native print of
   UrSelf and printf, the loggers. *)
From Coq Require Import String List NArith ZArith Bool.
From Verif Require Import Base.
Import ListNotations.
Open Scope N_scope.

(* ByteStreamArray.ulam:6-8; the array is a function on its indices *)
Record arr := mkArr { mWrite : N; mRead : N; mData : N -> N }.
Definition arr0 : arr := mkArr 0 0 (fun _ => 0).
(* :10 *)
Definition stillRoom (len : N) (a : arr) : bool := mWrite a <? len.
(* :19-26 *)
Definition awriteByte (len : N) (a : arr) (x : N) : arr * Z :=
  if stillRoom len a then (mkArr (mWrite a + 1) (mRead a) (fun i => if i =? mWrite a then x else mData a i), 0%Z) else (a, (-1)%Z).
(* :29-34 *)
Definition areadByte (len : N) (a : arr) : arr * Z :=
  if mRead a <? mWrite a then (mkArr (mWrite a) (mRead a + 1) (mData a), Z.of_N (mData a (mRead a)))
  else if stillRoom len a then (a, (-2)%Z) else (a, (-1)%Z).
(* :43-46 *)
Definition areread (a : arr) : arr := mkArr (mWrite a) 0 (mData a).
(* :49-52 *)
Definition arewrite (a : arr) : arr := mkArr 0 (mRead a) (mData a).
(* :36-40 *)
Definition areset (a : arr) : arr := arewrite (areread a).

(* ByteStreamString.ulam:5-6: the string and the index *)
Record str := mkStr { m_string : list N; m_index : N }.
(* :12-16, :19-22 *)
Definition readFrom (s : list N) : str := mkStr s 0.
Definition sreread (s : str) : str := mkStr (m_string s) 0.
(* :25-28 *)
Definition sreadByte (s : str) : str * Z :=
  if N.of_nat (length (m_string s)) <=? m_index s then (s, (-1)%Z)
  else (mkStr (m_string s) (m_index s + 1), Z.of_N (nth (N.to_nat (m_index s)) (m_string s) 0)).

(* ByteStream.ulam:59-67 *)
Definition printS {W} (wb : W -> N -> W) (w : W) (s : list N) : W := fold_left wb s w.
(* :76-82 *)
Definition printB {W} (wb : W -> N -> W) (w : W) (b : bool) : W := wb w (if b then 49 else 48).
(* :94 *)
Definition digitChars : list N := txt "0123456789abcdefghijklmnopqrstuvwxyz".
(* :89-102, with a bound on the depth of the recursion *)
Fixpoint printUb {W} (fuel : nat) (wb : W -> N -> W) (w : W) (n base : N) : option W :=
  match fuel with
  | O => None
  | S f =>
    if n =? 0 then Some (printS wb w (txt "0")) else
    let base := if base =? 0 then 10 else base in
    if (base <? 2) || (N.of_nat (length digitChars) <=? base) then None else
    match (if base <=? n then printUb f wb w (n / base) base else Some w) with
    | Some w' => Some (wb w' (nth (N.to_nat (n mod base)) digitChars 0))
    | None => None
    end
  end.
Definition printU {W} (wb : W -> N -> W) (w : W) (n base : N) : option W := printUb (S (N.to_nat (N.size n))) wb w n base.
(* :104-112 *)
Definition printI {W} (wb : W -> N -> W) (w : W) (n : Z) : option W :=
  if (n =? -2147483648)%Z then Some (printS wb w (txt "-2147483648")) else
  if (n <? 0)%Z then printU wb (printS wb w (txt "-")) (Z.to_N (- n)) 10 else printU wb w (Z.to_N n) 10.
(* :119-128; the loop, max turns at most: the states after, and the number returned *)
Fixpoint writeBytes {W R} (max : nat) (wb : W -> N -> W) (rd : R -> R * Z) (w : W) (r : R) (i : N) : W * R * N :=
  match max with
  | O => (w, r, i)
  | S m => let '(r', ch) := rd r in
           if (ch <? 0)%Z then (w, r', i) else writeBytes m wb rd (wb w (Z.to_N ch mod 256)) r' (i + 1)
  end.
