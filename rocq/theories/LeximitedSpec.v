(* LeximitedSpec.v: a reader for the leximited format, written from the format description only
   (a length below 9 is one digit; otherwise '9', the leximited length of the length, the length).
   It shares nothing with the encoder of LeximitedModel.v. *)
From Coq Require Import List NArith ZArith Bool.
Import ListNotations.
Open Scope N_scope.

(* the number written by decimal digit characters *)
Definition read_dec (s : list N) : N := fold_left (fun a c => 10 * a + (c - 48)) s 0.

Fixpoint read_header (s : list N) : option (N * list N) :=
  match s with
  | [] => None
  | c :: r =>
    if (48 <=? c) && (c <=? 56) then Some (c - 48, r)
    else if c =? 57 then
      match read_header r with
      | Some (k, r') =>
        let k' := N.to_nat k in
        if (k' <=? List.length r')%nat
        then Some (read_dec (firstn k' r'), skipn k' r')
        else None
      | None => None
      end
    else None
  end.

(* a leximited string: header, then that many bytes; returns the string and what follows *)
Definition read_string (s : list N) : option (list N * list N) :=
  match read_header s with
  | Some (k, r) =>
    let k' := N.to_nat k in
    if (k' <=? List.length r)%nat then Some (firstn k' r, skipn k' r) else None
  | None => None
  end.

(* a leximited unsigned number: a leximited string of decimal digits *)
Definition read_unsigned (s : list N) : option (N * list N) :=
  match read_string s with
  | Some (ds, r) => Some (read_dec ds, r)
  | None => None
  end.

(* a leximited signed number; 'n' (110) marks a negative one and n10 is the most negative one *)
Definition read_signed (smin : Z) (s : list N) : option (Z * list N) :=
  match s with
  | c :: r =>
    if c =? 110 then
      match read_unsigned r with
      | Some (0, r') => Some (smin, r')
      | Some (n, r') => Some ((- Z.of_N n)%Z, r')
      | None => None
      end
    else
      match read_unsigned s with
      | Some (n, r') => Some (Z.of_N n, r')
      | None => None
      end
  | [] => None
  end.
