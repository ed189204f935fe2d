(* PreparseSpec.v: what a source file with directives stands for. Independent of the model's functions: tokens and items only. *)
From Coq Require Import String List NArith ZArith Bool.
From Verif Require Import Base PreparseModel.
Import ListNotations.
Open Scope N_scope.

(* a source file is a sequence of tokens and directives *)
Inductive item :=
| IPlain (t : rtok)             (* a token of the program *)
| IUse (ws : list text)         (* use a.b.c; *)
| ILoad (ws : list text)        (* load a.b.c; *)
| ILoadFile (f : text)          (* load "name"; *)
| IVersion (s : text).          (* ulam 5; *)

Fixpoint dotted (ws : list text) : list rtok :=
  match ws with [] => [] | [w] => [TWord w] | w :: r => TWord w :: TDot :: dotted r end.
Fixpoint slashed (ws : list text) : text :=
  match ws with [] => [] | [w] => w | w :: r => w ++ txt "/" ++ slashed r end.
Definition path (ws : list text) : text := slashed ws ++ txt ".ulam".

Definition print (i : item) : list rtok :=
  match i with
  | IPlain t => [t]
  | IUse ws => TUse :: dotted ws ++ [TSemi]
  | ILoad ws => TLoad :: dotted ws ++ [TSemi]
  | ILoadFile f => [TLoad; TQuoted f; TSemi]
  | IVersion s => [TUlam; TNumber s; TSemi]
  end.
Definition prints (l : list item) : list rtok := concat (map print l).

(* the number a numeral stands for *)
Inductive denotes : text -> N -> Prop :=
| den_dec d ds : d <> 0 -> Forall (fun x => x < 10) (d :: ds) -> denotes (map digit_char (d :: ds)) (dval 10 (d :: ds))
| den_oct ds : Forall (fun x => x < 8) ds -> denotes (txt "0" ++ map digit_char ds) (dval 8 ds)
| den_hex ds : ds <> [] -> Forall (fun x => x < 16) ds -> denotes (txt "0x" ++ map digit_char ds) (dval 16 ds).

Definition item_ok (i : item) : Prop :=
  match i with
  | IPlain t => match t with TUse | TLoad | TUlam | TEof => False | _ => True end
  | IUse ws | ILoad ws => ws <> []
  | ILoadFile f => f <> [] /\ Forall (fun c => 32 <= c <= 126) f
  | IVersion s => exists v, denotes s v /\ v < 2 ^ 32
  end.

(* a set of source files, and the file system it is *)
Definition sources := text -> option (list item).
Definition files (src : sources) (f : text) : option file := option_map (fun b => mkFile (prints b) false) (src f).
Definition sources_ok (src : sources) : Prop := forall f b, src f = Some b -> Forall item_ok b.

(* the file a directive loads *)
Definition loaded (i : item) : option text :=
  match i with ILoad ws => Some (path ws) | ILoadFile f => Some f | _ => None end.

(* the program that a file stands for: a load stands for the loaded file, use and ulam stand for nothing; a file that is not there
   and a version that is too new are errors *)
Inductive stands_for (src : sources) : list item -> list rtok -> Prop :=
| st_nil : stands_for src [] []
| st_plain t r o : stands_for src r o -> stands_for src (IPlain t :: r) (t :: o)
| st_use ws b r o : src (path ws) = Some b -> stands_for src r o -> stands_for src (IUse ws :: r) o
| st_no_use ws r o : src (path ws) = None -> stands_for src r o -> stands_for src (IUse ws :: r) (TError :: o)
| st_load i g b r o1 o2 : loaded i = Some g -> src g = Some b -> stands_for src b o1 -> stands_for src r o2 -> stands_for src (i :: r) (o1 ++ o2)
| st_no_load i g r o : loaded i = Some g -> src g = None -> stands_for src r o -> stands_for src (i :: r) (TError :: o)
| st_version s v r o : denotes s v -> v <= 5 -> stands_for src r o -> stands_for src (IVersion s :: r) o
| st_new_version s v r o : denotes s v -> 5 < v -> stands_for src r o -> stands_for src (IVersion s :: r) (TError :: o).

(* a set of files each of which loads one of them *)
Definition load_cycle (src : sources) (S : text -> Prop) : Prop :=
  forall f, S f -> exists b i g, src f = Some b /\ In i b /\ loaded i = Some g /\ S g.
