(* ParamSpec.v: what is asked of parameters and arguments (C101). *)
From Coq Require Import List NArith ZArith Bool.
From Verif Require Import ConstResModel ParamModel.
Import ListNotations.
Open Scope N_scope.

(* a list as it should be written: commas between, a parenthesis at the end *)
Fixpoint written {A T} (item : A -> T) (comma close : T) (l : list A) : list T :=
  match l with
  | [] => [close]
  | [x] => [item x; close]
  | x :: r => item x :: comma :: written item comma close r
  end.
Definition write_params : list param -> list ptok := written PDecl PComma PClose.
Definition write_args : list ex -> list atok := written AE AComma AClose.

(* a definition is in order: different names, and after a default value only default values *)
Definition good_params (ps : list param) : Prop :=
  NoDup (map p_id ps) /\ forall i j p q, (i < j)%nat -> nth_error ps i = Some p -> nth_error ps j = Some q -> p_def p <> None -> p_def q <> None.
(* k arguments are enough, and not too many *)
Definition enough (ps : list param) (k : nat) : Prop :=
  (k <= length ps)%nat /\ forall i p, (k <= i)%nat -> nth_error ps i = Some p -> p_def p <> None.
(* each parameter has its argument, by position; or else its default value *)
Definition bound (ps : list param) (es : list ex) (bs : list binding) : Prop :=
  length bs = length ps /\
  forall i p b, nth_error ps i = Some p -> nth_error bs i = Some b ->
    b_id b = p_id p /\ b_fit b = p_fit p /\
    match nth_error es i with Some e => b_ex b = e /\ b_dflt b = false | None => p_def p = Some (b_ex b) /\ b_dflt b = true end.

(* the value of an argument (false: ctx is what is known where it is written) or of a default value (true: the parameters of the
   instance, then what is known in the template) *)
Inductive AVal (bs : list binding) (ctx tmpl : env) : bool -> ex -> Z -> Prop :=
| A_val d v : AVal bs ctx tmpl d (EVal v) v
| A_ctx i v : ctx i = Some v -> AVal bs ctx tmpl false (EName i) v
| A_param b v w : In b bs -> AVal bs ctx tmpl (b_dflt b) (b_ex b) v -> b_fit b v = Some w -> AVal bs ctx tmpl true (EName (b_id b)) w
| A_tmpl i v : ~ In i (map b_id bs) -> tmpl i = Some v -> AVal bs ctx tmpl true (EName i) v
| A_op d o a b u v w : AVal bs ctx tmpl d a u -> AVal bs ctx tmpl d b v -> o u v = Some w -> AVal bs ctx tmpl d (EOp o a b) w.
Definition ArgValue (bs : list binding) (ctx tmpl : env) (b : binding) (w : Z) : Prop :=
  exists v, AVal bs ctx tmpl (b_dflt b) (b_ex b) v /\ b_fit b v = Some w.

Definition sub (r r' : env) : Prop := forall i v, r i = Some v -> r' i = Some v.
