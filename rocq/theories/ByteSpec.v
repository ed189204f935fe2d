(* ByteSpec.v: queues of bytes, and numerals. *)
From Coq Require Import List NArith ZArith Bool.
Import ListNotations.
Open Scope N_scope.

(* what a user asks of a stream *)
Inductive op := Write (x : N) | Read.
(* the bytes that were accepted (answer 0 to a write), and the bytes that were read (an answer of 0 or more), in a run: operations
   with their answers *)
Definition accepted (run : list (op * Z)) : list N :=
  flat_map (fun q => match q with (Write x, z) => if (z =? 0)%Z then [x] else [] | _ => [] end) run.
Definition got (run : list (op * Z)) : list N :=
  flat_map (fun q => match q with (Read, z) => if (0 <=? z)%Z then [Z.to_N z] else [] | _ => [] end) run.
(* the answers are right after the earlier run: a write is taken while there is room, a read gives the next byte, and says whether
   more may come when there is none *)
Definition right_answer (len : N) (before : list (op * Z)) (o : op) (z : Z) : Prop :=
  let a := accepted before in let g := got before in
  match o with
  | Write _ => z = if N.of_nat (length a) <? len then 0%Z else (-1)%Z
  | Read => match skipn (length g) a with
            | b :: _ => z = Z.of_N b
            | [] => z = if N.of_nat (length a) <? len then (-2)%Z else (-1)%Z
            end
  end.

(* digits and their values *)
Definition digit (c : N) : option N :=
  if (48 <=? c) && (c <=? 57) then Some (c - 48) else if (97 <=? c) && (c <=? 122) then Some (c - 87) else None.
Fixpoint val (base acc : N) (s : list N) : option N :=
  match s with
  | [] => Some acc
  | c :: r => match digit c with Some d => if d <? base then val base (acc * base + d) r else None | None => None end
  end.
(* s is the numeral of n: no zero in front, and at least one digit *)
Definition numeral (base n : N) (s : list N) : Prop :=
  val base 0 s = Some n /\ s <> [] /\ (hd 0 s = 48 -> s = [48]).
(* with a sign *)
Definition int_numeral (n : Z) (s : list N) : Prop :=
  if (n <? 0)%Z then exists t, s = 45 :: t /\ numeral 10 (Z.to_N (- n)) t else numeral 10 (Z.to_N n) s.
