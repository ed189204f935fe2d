(* HexEscapeSpec.v: readers for %xx escapes and for HexU64(0xH, 0xL); independent of the model. *)
From Coq Require Import String List NArith ZArith Bool.
From Verif Require Import Base.
Import ListNotations.
Open Scope N_scope.

(* value of a lower-case hex digit character *)
Definition hexval (c : N) : option N :=
  if (48 <=? c) && (c <=? 57) then Some (c - 48)
  else if (97 <=? c) && (c <=? 102) then Some (c - 87)
  else None.

(* %xy stands for the byte xy; every other character stands for itself *)
Fixpoint unescape (s : text) : option text :=
  match s with
  | [] => Some []
  | c :: r =>
    if c =? 37 then
      match r with
      | a :: b :: r' =>
        match hexval a, hexval b, unescape r' with
        | Some x, Some y, Some t => Some (16 * x + y :: t)
        | _, _, _ => None
        end
      | _ => None
      end
    else match unescape r with Some t => Some (c :: t) | None => None end
  end.

Definition visible (c : N) : bool := (33 <=? c) && (c <=? 126).

(* read the longest run of hex digits as a number *)
Fixpoint read_hex (acc : N) (s : text) : N * text :=
  match s with
  | c :: r => match hexval c with Some d => read_hex (16 * acc + d) r | None => (acc, s) end
  | [] => (acc, [])
  end.

Fixpoint expect (p s : text) : option text :=
  match p, s with
  | [], _ => Some s
  | a :: p', b :: s' => if a =? b then expect p' s' else None
  | _, _ => None
  end.

(* the 64-bit value denoted by HexU64(0xHI, 0xLO): HI * 2^32 + LO, both halves being u32 *)
Definition read_HexU64 (s : text) : option N :=
  match expect (txt "HexU64(0x") s with
  | Some s1 =>
    let '(hi, s2) := read_hex 0 s1 in
    match expect (txt ", 0x") s2 with
    | Some s3 =>
      let '(lo, s4) := read_hex 0 s3 in
      match expect (txt ")") s4 with
      | Some [] => if (hi <? 2 ^ 32) && (lo <? 2 ^ 32) then Some (hi * 2 ^ 32 + lo) else None
      | _ => None
      end
    | None => None
    end
  | None => None
  end.

(* a ulam source file name: a non-empty stem followed by .ulam *)
Definition ulam_file_name (s stem : text) : Prop := stem <> [] /\ s = stem ++ txt ".ulam".
