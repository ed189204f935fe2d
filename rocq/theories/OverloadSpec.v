(* OverloadSpec.v: which functions a call can mean, stated one parameter at a time, without loops or flags. *)
From Coq Require Import List NArith Bool.
From Verif Require Import Base TypeTableModel OverloadModel.
Import ListNotations.
Open Scope N_scope.

Section Spec.
Variables P A : Type.
Variable rel : P -> A -> fit.

Definition is_same (c : cmp) : bool := match c with Same => true | _ => false end.
Definition is_clear (c : forecast) : bool := match c with CAST_CLEAR => true | _ => false end.

(* the argument has the parameter's very type, and the type is complete *)
Definition exact1 (x : fit) : bool := p_ok x && p_complete x && is_same (pa_cmp x).
(* the argument has the parameter's type or can be cast to it safely. A constant needs only its value to fit, but it goes
   to a reference parameter only if the parameter is constant and no cast was written; nor does a written cast go to a
   constant reference *)
Definition clear1 (x : fit) : bool :=
  p_ok x && a_ok x &&
  (is_same (pa_cmp x)
   || (if a_const x then negb (p_ref x && (negb (p_const x) || a_explicit x)) && is_clear (a_safe x)
       else is_clear (p_safe x) && negb (p_constref x && a_explicit x))).
(* of the same kind of type, up to size *)
Definition same1 (x : fit) : bool := is_same (pa_cmp x) || same_enum x.

Definition number_ok (f : func P) (args : list A) : bool :=
  Nat.eqb (length (f_params P f)) (length args)
  || (f_varargs P f && Nat.ltb (length (f_params P f)) (length args)).
Definition fits (f : func P) (args : list A) : list fit := map (fun pa => rel (fst pa) (snd pa)) (combine (f_params P f) args).

Definition exact_fit (args : list A) (f : func P) : bool := number_ok f args && forallb exact1 (fits f args).
Definition safe_fit (args : list A) (f : func P) : bool := number_ok f args && forallb clear1 (fits f args).
Definition same_fit (args : list A) (f : func P) : bool :=
  safe_fit args f && Nat.eqb (length (f_params P f)) (length args) && forallb same1 (fits f args).

(* the choice among the functions of one class: the only safe candidate, or the only one of the same kinds of types *)
Inductive chosen (fs : list (func P)) (args : list A) (f : func P) : Prop :=
| only_one : filter (safe_fit args) fs = [f] -> chosen fs args f
| only_same : (2 <= length (filter (safe_fit args) fs))%nat -> filter (same_fit args) fs = [f] -> chosen fs args f.

(* nothing about these functions and arguments is still unknown *)
Definition settled1 (x : fit) : bool :=
  p_ok x && p_complete x && a_ok x
  && match pa_cmp x with DontKnow => false | _ => true end
  && match a_safe x with CAST_HAZY => false | _ => true end
  && match p_safe x with CAST_HAZY => false | _ => true end.
Definition settled (fs : list (func P)) (args : list A) : Prop :=
  forall f p a, In f fs -> In p (f_params P f) -> In a args -> settled1 (rel p a) = true.

(* the classes the search by safe casts may look at: the class of the call, and the bases of classes that do not choose *)
Inductive visible (root : N -> N) (bases : N -> option (list N)) (overloads : N -> list (func P)) (args : list A) (c : N) : N -> Prop :=
| vis_first : visible root bases overloads args c (root c)
| vis_base x bs b : visible root bases overloads args c x -> (forall f, ~ chosen (overloads x) args f) ->
    bases x = Some bs -> In b bs -> visible root bases overloads args c (root b).

End Spec.
