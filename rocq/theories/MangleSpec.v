(* MangleSpec.v: which types, template arguments and parameters are the same, and which make sense at all. *)
From Coq Require Import List NArith ZArith Bool.
From Verif Require Import Base BitVec UTypeModel PrimSpec StringPoolModel MangleModel.
Import ListNotations.
Open Scope N_scope.

(* sizes as of a complete type: a scalar has array size -1 *)
Definition complete_sizes (t : utype) : Prop :=
  (-1 <= ty_arr t < 2 ^ 31)%Z /\ (0 <= ty_bits t < 2 ^ 31)%Z.

(* passed by reference or not *)
Definition by_reference (t : utype) : Prop := ty_ref t <> AltNot.

Definition same_shape (t t' : utype) : Prop :=
  ty_arr t = ty_arr t' /\ ty_bits t = ty_bits t' /\ (by_reference t <-> by_reference t').
Definition same_plain (t t' : utype) : Prop := ty_enum t = ty_enum t' /\ same_shape t t'.

(* an argument that is a number or an array of them *)
Definition number_arg (a : arg) : Prop :=
  primitive (ty_enum (a_ty a)) /\ ty_ref (a_ty a) = AltNot /\
  exists n items, a_val a = AData items /\ ty_bits (a_ty a) = Z.of_N n /\ 1 <= n <= 64 /\
    Forall (fun d => d < 2 ^ n) items /\
    ((ty_arr (a_ty a) = -1)%Z /\ List.length items = 1%nat \/
     (ty_arr (a_ty a) = Z.of_nat (List.length items) /\ Z.of_N n * Z.of_nat (List.length items) < 2 ^ 31)%Z).

(* an argument that is a user string *)
Definition string_arg (a : arg) : Prop :=
  ty_enum (a_ty a) = EString /\ ty_ref (a_ty a) = AltNot /\ ty_bits (a_ty a) = 18%Z /\ ty_arr (a_ty a) = (-1)%Z /\
  exists b s, a_val a = AStrings [s] /\ Forall (fun c => c < 256) b /\ format_user b = Some s.

(* the same value: the same numbers, the same string *)
Definition same_value (a a' : arg) : Prop :=
  match a_val a, a_val a' with
  | AData l, AData l' =>
    let m d := meaning (ty_enum (a_ty a)) (msb_bits (Z.to_nat (ty_bits (a_ty a))) d) in
    Forall2 (fun d d' => m d = m d') l l'
  | AStrings l, AStrings l' => l = l'
  | AClass l, AClass l' => l = l'
  | _, _ => False
  end.
Definition same_arg (a a' : arg) : Prop := same_plain (a_ty a) (a_ty a') /\ same_value a a'.

(* class names start with a capital letter; [templ] gives the number of parameters of each template *)
Definition is_class_name (s : text) : Prop :=
  (exists c r, s = c :: r /\ 65 <= c <= 90) /\ N.of_nat (List.length s) < 2 ^ 32.
Definition known_param (templ : text -> option nat) (p : ptype) : Prop :=
  match p with
  | PPlain t => complete_sizes t
  | PClass name t args =>
    complete_sizes t /\ is_class_name name /\
    match args, templ name with
    | None, None => True
    | Some l, Some n => List.length l = n /\ N.of_nat n < 2 ^ 32 /\ Forall number_arg l
    | _, _ => False
    end
  end.

Definition same_param (p p' : ptype) : Prop :=
  match p, p' with
  | PPlain t, PPlain t' => same_plain t t'
  | PClass name t args, PClass name' t' args' =>
    name = name' /\ same_shape t t' /\
    match args, args' with
    | None, None => True
    | Some l, Some l' => Forall2 same_arg l l'
    | _, _ => False
    end
  | _, _ => False
  end.
