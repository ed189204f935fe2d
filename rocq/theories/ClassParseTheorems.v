(* ClassParseTheorems.v: classes and the file (C96). *)
From Coq Require Import List PeanoNat NArith Lia Bool.
From Verif Require Import Base ExprModel ExprSpec ExprProofs ExprValue ExprComplete ExprTheorems StmtModel StmtSpec StmtProofs StmtComplete StmtSound StmtTheorems
  ClassParseModel ClassParseSpec ClassParseComplete ClassParseSound ClassParseSound2 ClassParseEnds.
Import ListNotations.
Open Scope nat_scope.

(* every file of the grammar is read as the classes it defines, without an error. Missing: the expressions C41 and C72 leave out *)
Theorem C96_reads_partial kind isref ts cs : File XC YC kind isref false ts cs -> parse kind isref ts = Done cs (start []).
Proof. intro H. unfold parse. apply (file_ok kind isref ts cs H (S (length ts)) []). lia. Qed.
Print Assumptions C96_reads_partial.

(* so a file defines one list of classes only *)
Theorem C96_unique kind isref ts cs cs' : File XC YC kind isref false ts cs -> File XC YC kind isref false ts cs' -> cs = cs'.
Proof. intros H H'. apply C96_reads_partial in H, H'. congruence. Qed.
Print Assumptions C96_unique.

(* what is read without an error, no expression lost, is a file of the grammar, but for what ClassParseSpec calls lax, up to the end of the file *)
Theorem C96_only_partial kind isref ts cs s : parse kind isref ts = Done cs s -> err s = false -> lost s = false ->
  exists u rest, ts = u ++ rest /\ hd_tok rest = E TEnd /\ File RX RY kind isref true u cs.
Proof.
  intros H H1 H2. pose proof (wp_parseFile kind isref (S (length ts)) [] (start ts)) as W. unfold parse in H. rewrite H in W.
  destruct W as (cs' & u & rest & -> & T & HE & HF); [now split|]. now exists u, rest.
Qed.
Print Assumptions C96_only_partial.

(* the parser never goes on for ever, whatever the tokens *)
Theorem C96_ends kind isref ts : parse kind isref ts <> Fuel.
Proof. intro H. pose proof (en_parseFile kind isref (S (length ts)) [] (start ts)) as K. unfold parse in H. rewrite H in K. apply K. cbn. lia. Qed.
Print Assumptions C96_ends.

(* a class of the grammar: every kind of member. 1 to 4 are names of classes, 5 a base with arguments, 6 Int, 7 Self, 8 Self& *)
Definition k0 (t : N) : tykind :=
  match t with 5%N => KdArgs 50 | 6%N => KdWord | 7%N | 8%N => KdSelf | 9%N => KdVoid | 10%N => KdAtom | _ => KdName end.
Definition r0 (t : N) : bool := N.eqb t 8.
Definition ty (t : N) : stok := E (TType t).
Definition idt (t : N) : stok := E (TIdent t).
Definition num (t : N) : stok := E (TNum t).
Definition asg : stok := E (TAssign 0).
Definition fn over virt constr t i ps dots c := {| f_override := over; f_virtual := virt; f_constr := constr; f_ty := t; f_id := i; f_params := ps; f_dots := dots; f_code := c |}.
Definition class k conc n ps sup bs ms := {| c_kind := k; c_concrete := conc; c_name := n; c_params := ps; c_super := sup; c_bases := bs; c_members := ms |}.
Definition lines : list stok :=
  [Other WConcrete; Other WElement; ty 1; E TOpen; ty 6; idt 20; E TComma; ty 6; idt 21; asg; num 3; E TClose; E TColon; ty 2; E (TBin Add); ty 5; OpenC;
     KTypedef; ty 6; ty 3; Semi;
     KConst; ty 6; idt 22; asg; num 4; Semi;
     Other WParameter; ty 6; idt 23; asg; num 5; Semi;
     ty 6; idt 24; E TComma; idt 25; asg; num 6; Semi;
     ty 6; idt 26; E TOpen; KConst; ty 6; idt 27; E TComma; ty 6; idt 28; E TComma; Other Ellipsis; E TClose; Other WNative; Semi;
     ty 7; E TOpen; ty 6; idt 29; E TClose; OpenC; KReturn; Semi; CloseC;
     Other WVirtual; ty 6; idt 30; E TOpen; E TClose; Semi;
     KOverride; Other WVirtual; ty 6; idt 31; E TOpen; E TClose; OpenC; CloseC;
   CloseC;
   Other WQuark; ty 4; OpenC; CloseC].
Definition lines_classes : list cls :=
  [class Element true 1%N [(6, 20, NNull); (6, 21, NNum 3)]%N (SIs 2%N) [5%N]
     [MTypedef 6 3; MConst 6 22 (NNum 4); MParam 6 23 (NNum 5); MVar 6 24 NNull; MVar 6 25 (NNum 6);
      MFunc (fn false false false 6 26 [(true, 6, 27); (false, 6, 28)] true CNative);
      MFunc (fn false false true 7 0 [(false, 6, 29)] false (CCode [TReturn NNull]));
      MFunc (fn false true false 6 30 [] false CPure);
      MFunc (fn true true false 6 31 [] false (CCode []))]%N;
   class Quark false 4%N [] SDefault [] []].
Lemma Y_num n : YC false [TNum n] (NNum n). Proof. split; [apply num_G; exact I | reflexivity]. Qed.
Example C96_ex : File XC YC k0 r0 false lines lines_classes.
Proof.
  apply (File_class XC YC k0 r0 false (firstn 78 lines) (hd (class Quark false 4%N [] SDefault [] []) lines_classes) (skipn 78 lines) (tl lines_classes)).
  - apply (Class_def XC YC k0 r0 false Element true [Other WConcrete] 1%N (firstn 9 (skipn 3 lines)) [(6, 20, NNull); (6, 21, NNum 3)]%N [E TColon; ty 2] (SIs 2%N) [E (TBin Add); ty 5] [5%N] (firstn 60 (skipn 17 lines))
      (c_members (hd (class Quark false 4%N [] SDefault [] []) lines_classes))); [reflexivity | now right; left | | | |].
    + apply (H_some YC k0 r0 false [ty 6; idt 20; E TComma; ty 6; idt 21; asg; num 3]).
      apply (CP_more YC k0 r0 false false 6%N 20%N [] NNull [E TComma] [ty 6; idt 21; asg; num 3]); try discriminate; try reflexivity; [constructor | constructor|].
      apply (CP_last YC k0 r0 false false 6%N 21%N [asg; num 3] (NNum 3) []); try discriminate; try reflexivity; [|constructor]. apply (I_some _ [TNum 3]), Y_num.
    + apply (Su_some k0 false 1%N [ty 2]). apply (Ba_one k0 false 1%N 2%N 2%N); [now left | discriminate].
    + apply (Bs_some k0 false 1%N [ty 5] (Some 5%N) [] []); [|constructor]. apply (Ba_one k0 false 1%N 5%N 50%N); [now right | discriminate].
    + apply (Ms_some XC YC k0 r0 false true 1%N [KTypedef; ty 6; ty 3; Semi] [MTypedef 6 3]). { now apply M_typedef. }
      apply (Ms_some XC YC k0 r0 false true 1%N [KConst; ty 6; idt 22; asg; num 4; Semi] [MConst 6 22 (NNum 4)]). { apply (M_const XC YC k0 r0 false true 1%N 6%N 22%N [TNum 4]); [discriminate | reflexivity | apply Y_num]. }
      apply (Ms_some XC YC k0 r0 false true 1%N [Other WParameter; ty 6; idt 23; asg; num 5; Semi] [MParam 6 23 (NNum 5)]).
      { apply (M_param XC YC k0 r0 false true 1%N 6%N 23%N [TNum 5]); [reflexivity | discriminate | discriminate | reflexivity | apply Y_num]. }
      apply (Ms_some XC YC k0 r0 false true 1%N [ty 6; idt 24; E TComma; idt 25; asg; num 6; Semi] [MVar 6 24 NNull; MVar 6 25 (NNum 6)]).
      { apply (M_vars XC YC k0 r0 false true 1%N 6%N [idt 24; E TComma; idt 25; asg; num 6]); [reflexivity|]. apply (V_more YC 6%N 24%N [] NNull [idt 25; asg; num 6]); [constructor|]. apply V_one, (I_some _ [TNum 6]), Y_num. }
      apply (Ms_some XC YC k0 r0 false true 1%N [ty 6; idt 26; E TOpen; KConst; ty 6; idt 27; E TComma; ty 6; idt 28; E TComma; Other Ellipsis; E TClose; Other WNative; Semi] [MFunc _]).
      { apply M_func, (Fn_func XC YC k0 r0 false [] false false 6%N 26%N [KConst; ty 6; idt 27; E TComma; ty 6; idt 28; E TComma; Other Ellipsis]); [constructor | | constructor | reflexivity].
        apply Ps_some, (P_more false true 6%N 27%N [E TComma]), (P_more false false 6%N 28%N [E TComma]); constructor. }
      apply (Ms_some XC YC k0 r0 false true 1%N [ty 7; E TOpen; ty 6; idt 29; E TClose; OpenC; KReturn; Semi; CloseC] [MFunc _]).
      { apply M_func, (Fn_constr XC YC k0 r0 false [] false 7%N [ty 6; idt 29]); [reflexivity | discriminate | now left | | discriminate | | discriminate].
        - apply Ps_some, (P_last false false 6%N 29%N []). constructor.
        - apply (K_code XC YC false false [KReturn; Semi]), (Ss_some XC YC false false false [KReturn; Semi] [TReturn NNull] [] []); constructor. }
      apply (Ms_some XC YC k0 r0 false true 1%N [Other WVirtual; ty 6; idt 30; E TOpen; E TClose; Semi] [MFunc _]).
      { apply M_func, (Fn_func XC YC k0 r0 false [Other WVirtual] false true 6%N 30%N []); [constructor | constructor | now constructor | discriminate]. }
      apply (Ms_some XC YC k0 r0 false true 1%N [KOverride; Other WVirtual; ty 6; idt 31; E TOpen; E TClose; OpenC; CloseC] [MFunc _] [] []); [|constructor].
      apply M_func, (Fn_func XC YC k0 r0 false [KOverride; Other WVirtual] true true 6%N 31%N [] [] false [OpenC; CloseC]); [constructor | constructor | | discriminate]. apply (K_code XC YC false true []). constructor.
  - apply (File_class XC YC k0 r0 false [Other WQuark; ty 4; OpenC; CloseC] (class Quark false 4%N [] SDefault [] []) [] []); [|apply (File_end XC YC k0 r0 false 0); now intros []].
    apply (Class_def XC YC k0 r0 false Quark false [] 4%N [] [] [] SDefault [] [] [] []); [reflexivity | now left | constructor | constructor | constructor | constructor].
Qed.
Example C96_ex_read : parse k0 r0 lines = Done lines_classes (start []).
Proof. vm_compute. reflexivity. Qed.

(* ---- refuted ---- *)
Definition quark (ms : list stok) : list stok := Other WQuark :: ty 1 :: OpenC :: ms ++ [CloseC].
(* the parameters of functions and classes are separated by commas: the comma can be left out, or another put at the end *)
Theorem C96_comma_refuted :
  let f ps := quark ([ty 6; idt 26; E TOpen] ++ ps ++ [E TClose; Other WNative; Semi]) in
  let c ps := [Other WQuark; ty 1; E TOpen] ++ ps ++ [E TClose; OpenC; CloseC] in
  (forall ps, In ps [[ty 6; idt 27; E TComma; ty 6; idt 28]; [ty 6; idt 27; ty 6; idt 28]; [ty 6; idt 27; E TComma; ty 6; idt 28; E TComma]] ->
     parse k0 r0 (f ps) = Done [class Quark false 1%N [] SDefault [] [MFunc (fn false false false 6 26 [(false, 6, 27); (false, 6, 28)] false CNative)%N]] (start []) /\
     parse k0 r0 (c ps) = Done [class Quark false 1%N [(6, 27, NNull); (6, 28, NNull)]%N SDefault [] []] (start [])).
Proof. cbv zeta. intros ps H. repeat destruct H as [<-|H]; try destruct H; split; vm_compute; reflexivity. Qed.
Print Assumptions C96_comma_refuted.
(* a class ends at its own closing curly: native with a curly instead of a semicolon takes that curly, and the rest of the file belongs to the class *)
Theorem C96_native_refuted :
  parse k0 r0 (quark [ty 6; idt 26; E TOpen; E TClose; Other WNative; CloseC; ty 6; idt 24; Semi]) =
    Done [class Quark false 1%N [] SDefault [] [MFunc (fn false false false 6 26 [] false CNative); MVar 6 24 NNull]%N] (start []).
Proof. vm_compute. reflexivity. Qed.
Print Assumptions C96_native_refuted.
(* a colon is followed by the name of a base class: the word local is enough, and the class is left without a superclass *)
Theorem C96_local_refuted : parse k0 r0 [Other WQuark; ty 1; E TColon; E TLocal; OpenC; CloseC] = Done [class Quark false 1%N [] SUnset [] []] (start []).
Proof. vm_compute. reflexivity. Qed.
Print Assumptions C96_local_refuted.
(* the flag that a class is concrete stands before a class: it can be repeated, or stand at the end of the file *)
Theorem C96_concrete_refuted : parse k0 r0 [Other WConcrete; Other WConcrete; Other WQuark; ty 1; OpenC; CloseC; Other WConcrete] = Done [class Quark true 1%N [] SDefault [] []] (start []).
Proof. vm_compute. reflexivity. Qed.
Print Assumptions C96_concrete_refuted.
(* no file makes the compiler use a node that is NULL, or fail an assertion: a model parameter without a value at the end of the file does, and constant after virtual *)
Theorem C96_fault_refuted :
  parse k0 r0 [Other WElement; ty 1; OpenC; Other WParameter; ty 6; idt 23] = Fault /\
  parse k0 r0 (quark [Other WVirtual; KConst; ty 6; idt 26; E TOpen; E TClose; OpenC; CloseC]) = Fault.
Proof. split; vm_compute; reflexivity. Qed.
Print Assumptions C96_fault_refuted.
