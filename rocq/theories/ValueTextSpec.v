(* ValueTextSpec.v: readers of the texts of ValueTextModel.v: C++ array declarations, C++ constants, and leximited word lists. *)
From Coq Require Import String List NArith ZArith Bool.
From Verif Require Import Base BitVec LeximitedSpec HexEscapeSpec.
Import ListNotations.
Open Scope N_scope.

Definition is_digit (c : N) : bool := (48 <=? c) && (c <=? 57).
Fixpoint spaces (s : text) : text := match s with c :: r => if c =? 32 then spaces r else s | [] => [] end.
(* a run of decimal digits *)
Fixpoint read_digits (acc : N) (s : text) : N * text :=
  match s with c :: r => if is_digit c then read_digits (10 * acc + (c - 48)) r else (acc, s) | [] => (acc, []) end.
(* a C++ integer constant: decimal, or 0x and at least one digit. Octal ones do not occur. *)
Definition read_const (s : text) : option (N * text) :=
  match expect (txt "0x") s with
  | Some (c :: r) => match hexval c with Some _ => Some (read_hex 0 (c :: r)) | None => None end
  | Some [] => None
  | None =>
    match s with
    | c :: r =>
      if c =? 48 then match r with d :: _ => if is_digit d then None else Some (0, r) | [] => Some (0, []) end
      else if is_digit c then Some (read_digits 0 s) else None
    | [] => None
    end
  end.
(* the items of an initialiser, after its { *)
Fixpoint read_items (fuel : nat) (s : text) : option (list N * text) :=
  match fuel with
  | O => None
  | S f =>
    match spaces s with
    | [] => None
    | c :: r =>
      if c =? 125 then Some ([], r)
      else match read_const (c :: r) with
           | None => None
           | Some (n, q) =>
             match spaces q with
             | d :: q => if d =? 44 then match read_items f q with Some (l, q) => Some (n :: l, q) | None => None end
                         else if d =? 125 then Some ([n], q) else None
             | [] => None
             end
           end
    end
  end.
(* the number of items between the brackets: a constant or (n + 31)/32 *)
Definition read_size (s : text) : option (N * text) :=
  match expect (txt "(") s with
  | Some s => match read_const s with
              | Some (n, s) => match expect (txt " + 31)/32") s with Some s => Some ((n + 31) / 32, s) | None => None end
              | None => None
              end
  | None => read_const s
  end.
(* [size] = { items }; of u32: missing items are zero, there must not be more, each must fit *)
Definition read_array (s : text) : option (list N) :=
  match expect (txt "[") s with
  | Some s =>
    match read_size s with
    | Some (n, s) =>
      match expect (txt "] = {") s with
      | Some s =>
        match read_items (S (List.length s)) s with
        | Some (l, s) =>
          if text_eqb s (txt ";") && (N.of_nat (List.length l) <=? n) && forallb (fun w => w <? 2 ^ 32) l
          then Some (l ++ repeat 0 (N.to_nat n - List.length l)) else None
        | None => None
        end
      | None => None
      end
    | None => None
    end
  | None => None
  end.
(* a constant of 64 bits *)
Definition read_value (s : text) : option N :=
  match read_HexU64 s with
  | Some v => Some v
  | None => match read_const s with Some (n, []) => Some n | _ => None end
  end.
(* a number of words, the words *)
Fixpoint read_words (n : nat) (s : text) : option (list N * text) :=
  match n with
  | O => Some ([], s)
  | S n => match read_unsigned s with
           | Some (w, s) => match read_words n s with Some (l, s) => Some (w :: l, s) | None => None end
           | None => None
           end
  end.
Definition read_lex (s : text) : option (list N * text) :=
  match read_unsigned s with Some (n, s) => read_words (N.to_nat n) s | None => None end.

(* the bits of words, the first bit of a word being its highest *)
Definition word_bits (ws : list N) : list bool := flat_map (msb_bits 32) ws.
