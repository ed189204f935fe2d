(* Strto64Model.v: conversion of numeric literals, src/ulam/strto64.cpp.
   The input is the list of chars before the terminating NUL (a NUL inside the list also terminates).
   C++ char is signed: a byte >= 128 is negative, so read() returns a negative value for it, which every caller
   treats as end of input. *)
From Coq Require Import String List NArith ZArith Bool.
From Verif Require Import Base.
Import ListNotations.
Open Scope N_scope.

(* the error messages of die(), strto64.cpp:97-247 *)
Inductive serr :=
| NoNumber | BothSigns | DupSign | NoDigits | NoRadix | AfterU | IllegalChar | TooLarge
| PosOverflow | NegOverflow | NegUnderflow | BelowMin | AboveMax.

(* outcome of strto64: value with errPtr null, or an error, or assertion failure / undefined behaviour *)
Inductive sres := SOk (r : N) | SErr (e : serr) | SAbort.

(* EXTERNAL: tolower and isspace in the C locale *)
Definition tolower (c : N) : N := if (65 <=? c) && (c <=? 90) then c + 32 else c.
Definition isspace (c : N) : bool := ((9 <=? c) && (c <=? 13)) || (c =? 32).

(* strto64.cpp:50-54 read(): None is a negative result *)
Definition rd (c : N) : option N := if (c =? 0) || (128 <=? c) then None else Some (tolower c).

(* strto64.cpp:65-86 digitVal (base 0 means not known yet, treated as 10) *)
Definition digitVal (base ch : N) : option N :=
  let eb := if base =? 0 then 10 else base in
  if ch <? 48 then None
  else if (eb <=? 10) || (ch <=? 57) then
    (if 48 + eb <=? ch then None else Some (ch - 48))
  else if (ch <? 97) || (97 + eb - 10 <=? ch) then None
  else Some (ch - 97 + 10).

(* strto64.cpp:91-120 parseSign: sign is 0, 1 or -1; result is the sign and the unread rest, or an error *)
Fixpoint parseSign (sign : Z) (s : text) : (Z * text) + serr :=
  match s with
  | [] => inr NoNumber
  | c :: r =>
    match rd c with
    | None => inr NoNumber
    | Some ch =>
      if isspace ch then parseSign sign r
      else if ch =? 43 then
        if (sign <? 0)%Z then inr BothSigns else if (0 <? sign)%Z then inr DupSign else parseSign 1 r
      else if ch =? 45 then
        if (sign <? 0)%Z then inr DupSign else if (0 <? sign)%Z then inr BothSigns else parseSign (-1) r
      else inl (sign, s)
    end
  end.

(* what read() sees next: (value, rest after the read) *)
Definition read1 (s : text) : option N * text :=
  match s with
  | [] => (None, [])
  | c :: r => if c =? 0 then (None, s) else (rd c, r)
  end.

Inductive bres := BBase (base : N) (rest : text) | BZero | BErr (e : serr).

(* strto64.cpp:122-174 parseBase; BZero is the short-circuited success with result 0 *)
Definition parseBase (s : text) : bres :=
  match (match fst (read1 s) with Some ch => digitVal 0 ch | None => None end) with
  | None => BErr NoDigits
  | Some val =>
    if (1 <=? val) && (val <=? 9) then BBase 10 s
    else if negb (val =? 0) then BErr NoRadix
    else
      let s1 := snd (read1 s) in
      let '(och, s2) := read1 s1 in
      match och with
      | None => match fst (read1 s2) with Some _ => BErr AfterU | None => BZero end
      | Some ch =>
        if ch =? 117 then match fst (read1 s2) with Some _ => BErr AfterU | None => BZero end
        else if ch =? 120 then BBase 16 s2
        else if ch =? 98 then BBase 2 s2
        else if (48 <=? ch) && (ch <=? 55) then BBase 8 s1
        else BErr IllegalChar
      end
  end.

(* strto64.cpp:176-202 parseDigits: u64 arithmetic wraps; the overflow test divides back *)
Fixpoint parseDigits (base result : N) (s : text) : N + serr :=
  match s with
  | [] => inl result
  | c :: r =>
    match rd c with
    | None => inl result
    | Some ch =>
      if ch =? 117 then
        match fst (read1 r) with Some _ => inr AfterU | None => inl result end
      else
        match digitVal base ch with
        | None => inr IllegalChar
        | Some val =>
          let nextResult := u64 (result * base + val) in
          if negb (nextResult / base =? result) then inr TooLarge
          else parseDigits base nextResult r
        end
    end
  end.

(* (s64) x for a u64 x *)
Definition s64 (x : N) : Z := if x <? 2 ^ 63 then Z.of_N x else (Z.of_N x - 2 ^ 64)%Z.
Definition of_s64 (z : Z) : N := Z.to_N (z mod 2 ^ 64)%Z.

(* EXTERNAL: MFM _GetNOnes63(n): n low ones, defined for n <= 63 *)
Definition GetNOnes63 (n : Z) : option Z := if ((0 <=? n) && (n <=? 63))%Z then Some (2 ^ n - 1)%Z else None.

(* strto64.cpp:204-251 checkRange. Negating S64_MIN is undefined (SAbort). *)
Definition checkRange (validBits sign : Z) (result : N) : sres :=
  if (validBits =? -64)%Z then
    if (0 <=? sign)%Z then
      if 2 ^ 63 - 1 <? result then SErr PosOverflow else SOk result
    else if 2 ^ 63 - 1 + 1 <? result then SErr NegOverflow
    else if result =? 2 ^ 63 - 1 + 1 then SOk (of_s64 (- 2 ^ 63))
    else SOk (of_s64 (- s64 result))
  else if (validBits =? 64)%Z then
    if (0 <=? sign)%Z then SOk result
    else if (0 <? s64 result)%Z then SErr NegUnderflow
    else if (s64 result =? - 2 ^ 63)%Z then SAbort
    else SOk (of_s64 (- s64 result))
  else if (validBits <? 0)%Z then
    match GetNOnes63 (- validBits + 1) with
    | None => SAbort
    | Some max =>
      let min := (- max - 1)%Z in
      let result := if (sign <? 0)%Z then u64 (result * (two64 - 1)) else result in
      if (s64 result <? min)%Z then SErr BelowMin
      else if (max <? s64 result)%Z then SErr AboveMax
      else SOk result
    end
  else SAbort.

(* strto64.cpp:13-19 parse and :255-259 strto64 *)
Definition strto64 (s : text) (validBits : Z) : sres :=
  if ((validBits <? -64) || (64 <? validBits))%Z then SAbort
  else
    match parseSign 0 s with
    | inr e => SErr e
    | inl (sign, s1) =>
      match parseBase s1 with
      | BErr e => SErr e
      | BZero => SOk 0
      | BBase base s2 =>
        match parseDigits base 0 s2 with
        | inr e => SErr e
        | inl result => checkRange validBits sign result
        end
      end
    end.

(* include/strto64.h:89-101 *)
Definition strtou64 (s : text) : sres := strto64 s 64.
Definition strtos64 (s : text) : sres := strto64 s (-64).
