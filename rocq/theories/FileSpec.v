(* FileSpec.v: what a file is to its user.  Independent of the functions of FileModel.v. *)
From Coq Require Import List NArith ZArith Bool.
From Verif Require Import Base.
Import ListNotations.
Open Scope N_scope.

Definition byte (b : N) : Prop := b < 256.
Definition ascii (b : N) : Prop := b < 128.
Definition nonzero (b : N) : Prop := b <> 0.

(* what is read: looks and takes; each answers with the byte behind those taken before it, -1 behind the end *)
Inductive rop := Look | Take.
Fixpoint taken (l : list rop) : nat := match l with [] => O | Take :: r => S (taken r) | Look :: r => taken r end.
Definition answer (d : text) (before : list rop) : Z :=
  match nth_error d (taken before) with Some b => Z.of_N b | None => (-1)%Z end.

(* the number a text of digits, with or without a minus sign, says *)
Definition said (s : text) : Z :=
  let n := fun t => Z.of_N (fold_left (fun a c => 10 * a + (c - 48)) t 0) in
  match s with 45 :: t => (- n t)%Z | _ => n s end.

(* a text up to and with its first byte above 127, and that byte, 0 if there is none *)
Inductive upto : text -> text -> N -> Prop :=
| U_end : upto [] [] 0
| U_low b s t r : b < 128 -> upto s t r -> upto (b :: s) (b :: t) r
| U_high b s : 128 <= b -> upto (b :: s) [b] b.
