(* Strto64Spec.v: what a numeric literal is and what it denotes, independent of the conversion code.
   From the documentation in include/strto64.h:41-56: optional white space and one sign, then 0x hex, 0b binary,
   0 octal or 1-9 decimal, any letter case, optional u suffix. *)
From Coq Require Import String List NArith ZArith Bool.
From Verif Require Import Base.
Import ListNotations.
Open Scope N_scope.

Definition charval (c : N) : N :=
  if (48 <=? c) && (c <=? 57) then c - 48
  else if (97 <=? c) && (c <=? 102) then c - 87
  else if (65 <=? c) && (c <=? 70) then c - 55
  else 255.

Definition digits_in (b : N) (ds : text) : Prop := Forall (fun c => charval c < b) ds.

(* mathematical value: sum of digit * base^place *)
Fixpoint place_value (b : N) (ds : text) : N :=
  match ds with
  | [] => 0
  | c :: r => charval c * b ^ N.of_nat (List.length r) + place_value b r
  end.

Definition is_space (c : N) : bool := existsb (N.eqb c) [9; 10; 11; 12; 13; 32].

(* optional sign surrounded by white space *)
Definition sign_part (pre : text) (neg : bool) : Prop :=
  match filter (fun c => negb (is_space c)) pre with
  | [] => neg = false
  | [c] => (c = 43 /\ neg = false) \/ (c = 45 /\ neg = true)
  | _ => False
  end.

Inductive body_value : text -> N -> Prop :=
| bv_zero : body_value [48] 0
| bv_dec : forall c ds, 1 <= charval c < 10 -> digits_in 10 ds ->
    body_value (c :: ds) (place_value 10 (c :: ds))
| bv_hex : forall x ds, x = 120 \/ x = 88 -> digits_in 16 ds -> body_value (48 :: x :: ds) (place_value 16 ds)
| bv_bin : forall x ds, x = 98 \/ x = 66 -> digits_in 2 ds -> body_value (48 :: x :: ds) (place_value 2 ds)
| bv_oct : forall ds, ds <> [] -> digits_in 8 ds -> body_value (48 :: ds) (place_value 8 ds).

Definition u_suffix (s : text) : Prop := s = [] \/ s = [117] \/ s = [85].

(* [literal s z]: the whole text s is a literal denoting the integer z *)
Definition literal (s : text) (z : Z) : Prop :=
  exists pre body suf neg v,
    s = pre ++ body ++ suf /\ sign_part pre neg /\ body_value body v /\ u_suffix suf /\
    z = (if neg then - Z.of_N v else Z.of_N v)%Z.

(* texts that a C string of plain ASCII can hold *)
Definition ascii_text (s : text) : bool := forallb (fun c => (0 <? c) && (c <? 128)) s.
