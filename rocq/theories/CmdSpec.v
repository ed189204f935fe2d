(* CmdSpec.v: the usage of the compiler: [SWITCHES] CLASS CLASS... *)
From Coq Require Import String List NArith.
From Verif Require Import Base SourceStreamModel CmdModel.
Import ListNotations.
Open Scope N_scope.

Definition capital (c : N) : Prop := 65 <= c <= 90.
Definition letter_or_digit (c : N) : Prop := 48 <= c <= 57 \/ 65 <= c <= 90 \/ 97 <= c <= 122.

(* the name of a class *)
Definition class_name (n : text) : Prop := exists c r, n = c :: r /\ capital c /\ Forall letter_or_digit r.
(* an argument for the class whose file is f *)
Definition names_file (a f : text) : Prop := exists n, class_name n /\ f = n ++ txt ".ulam" /\ (a = n \/ a = f).

(* reads l s o: l is a command line with the output directory s_out, the directories and the class files in order; o:
   -o has not been given before *)
Inductive reads : bool -> list text -> option text -> list text -> list text -> bool -> Prop :=
| R_classes : forall o l fs, Forall2 names_file l fs -> reads o l None [] fs false
| R_o : forall d l ds fs g, reads false l None ds fs g -> reads true (txt "-o" :: d :: l) (Some d) ds fs g
| R_i : forall o d l out ds fs g, reads o l out ds fs g -> reads o (txt "-i" :: d :: l) out (d :: ds) fs g
| R_g : forall o l out ds fs g, reads o l out ds fs g -> reads o (txt "-g" :: l) out ds fs true.

(* the first directory of the list that has the file *)
Inductive first_with (has : text -> bool) (path : text) : list text -> option text -> Prop :=
| FW_none : first_with has path [] None
| FW_here : forall d l, has (d ++ txt "/" ++ path) = true -> first_with has path (d :: l) (Some (d ++ txt "/" ++ path))
| FW_later : forall d l r, has (d ++ txt "/" ++ path) = false -> first_with has path l r -> first_with has path (d :: l) r.
