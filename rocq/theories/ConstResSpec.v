(* ConstResSpec.v: what the values of constants are, and how long it takes. *)
From Coq Require Import List NArith ZArith Bool.
From Verif Require Import ConstResModel.
Import ListNotations.
Open Scope N_scope.

(* the value of a constant: that of its expression, in terms of the values of the constants in it, whatever the order of the definitions *)
Inductive Value (ds : list def) : ex -> Z -> Prop :=
| V_val v : Value ds (EVal v) v
| V_name d v w : In d ds -> Value ds (d_ex d) v -> d_fit d v = Some w -> Value ds (EName (d_id d)) w
| V_op o a b u v w : Value ds a u -> Value ds b v -> o u v = Some w -> Value ds (EOp o a b) w.
Definition defined (ds : list def) (i : N) : Prop := exists d, In d ds /\ d_id d = i.

Inductive uses : ex -> N -> Prop :=
| U_name i : uses (EName i) i
| U_left o a b i : uses a i -> uses (EOp o a b) i
| U_right o a b i : uses b i -> uses (EOp o a b) i.
(* a constant that needs another *)
Inductive needs (ds : list def) : N -> N -> Prop :=
| N_one d j : In d ds -> uses (d_ex d) j -> needs ds (d_id d) j
| N_more i j k : needs ds i j -> needs ds j k -> needs ds i k.

(* before ds i j: the definition of j stands before that of i *)
Definition before (ds : list def) (j i : N) : Prop := exists a b c dj di, ds = a ++ dj :: b ++ di :: c /\ d_id dj = j /\ d_id di = i.
(* rank: at most rk i uses against the order of the definitions follow each other from i on *)
Definition ranked (ds : list def) (rk : N -> nat) : Prop :=
  forall d j, In d ds -> uses (d_ex d) j -> (before ds j (d_id d) -> (rk j <= rk (d_id d))%nat) /\ (~ before ds j (d_id d) -> (S (rk j) <= rk (d_id d))%nat).
