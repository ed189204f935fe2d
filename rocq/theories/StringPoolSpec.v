(* StringPoolSpec.v: a reader for adjacent C/C++ string literals (translation phases 1, 5 and 6), independent of
   the writer. It is stricter than C++: it rejects anything that could be a trigraph and any raw character
   outside 32..126 inside a literal. *)
From Coq Require Import String List NArith ZArith Bool.
From Verif Require Import Base.
Import ListNotations.
Open Scope N_scope.

Definition is_oct (c : N) : bool := (48 <=? c) && (c <=? 55).

Definition simple_escape (c : N) : option N :=
  if c =? 34 then Some 34 else if c =? 92 then Some 92 else if c =? 39 then Some 39 else if c =? 63 then Some 63
  else if c =? 97 then Some 7 else if c =? 98 then Some 8 else if c =? 102 then Some 12 else if c =? 110 then Some 10
  else if c =? 114 then Some 13 else if c =? 116 then Some 9 else if c =? 118 then Some 11 else None.

Definition byte_cons (v : N) (r : option text) : option text :=
  if v <? 256 then match r with Some t => Some (v :: t) | None => None end else None.

(* [inside] tells whether we are within the quotes *)
Fixpoint read_lits (inside : bool) (s : text) : option text :=
  match s with
  | [] => if inside then None else Some []
  | c :: r =>
    if inside then
      if c =? 34 then read_lits false r
      else if c =? 92 then
        match r with
        | [] => None
        | d1 :: r1 =>
          if is_oct d1 then
            match r1 with
            | [] => None
            | d2 :: r2 =>
              if is_oct d2 then
                match r2 with
                | [] => None
                | d3 :: r3 =>
                  if is_oct d3
                  then byte_cons (64 * (d1 - 48) + 8 * (d2 - 48) + (d3 - 48)) (read_lits true r3)
                  else byte_cons (8 * (d1 - 48) + (d2 - 48)) (read_lits true r2)
                end
              else byte_cons (d1 - 48) (read_lits true r1)
            end
          else match simple_escape d1 with
               | Some v => byte_cons v (read_lits true r1)
               | None => None
               end
        end
      else if (32 <=? c) && (c <=? 126) && negb (c =? 63) then byte_cons c (read_lits true r)
      else None
    else
      if c =? 34 then read_lits true r
      else if (c =? 32) || (c =? 10) || (c =? 9) then read_lits false r
      else None
  end.

(* the bytes of an initializer made of adjacent string literals, without the implicit final NUL *)
Definition read_initializer (s : text) : option text := read_lits false s.

(* the entry the run-time expects for a string: length, bytes, NUL *)
Definition entry (b : text) : text := N.of_nat (List.length b) :: b ++ [0].

(* indentation *)
Definition blank (s : text) : bool := forallb (fun c => (c =? 32) || (c =? 9)) s.

(* number of table bytes needed for a list of strings *)
Definition total (l : list text) : N := fold_right (fun b a => N.of_nat (List.length b) + 2 + a) 0 l.
