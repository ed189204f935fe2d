(* PreparseTheorems.v: final theorems about the directives use, load and ulam (C75). *)
From Coq Require Import String List NArith ZArith Lia Bool.
From Coq Require Import ZifyBool ZifyNat ZifyN.
From Verif Require Import Base PreparseModel PreparseSpec PreparseProofs.
Import ListNotations.
Open Scope N_scope.

(* ---- C75: the compiler reads exactly the program that the file stands for ---- *)
Theorem C75_exact_partial : forall src main body, sources_ok src -> src main = Some body -> (forall t r, body = IPlain t :: r -> t <> TError) ->
  forall program, (exists n, compile n (files src) main = Some program) <-> stands_for src body program.
Proof. intros src main b HS EB HB o. apply compile_exact; auto. Qed.
Print Assumptions C75_exact_partial.

(* ---- C75: and there is only one such program ---- *)
Theorem C75_one_program : forall src body p p', sources_ok src -> Forall item_ok body -> stands_for src body p -> stands_for src body p' -> p = p'.
Proof.
  intros src body p p' HS HB H. revert p'.
  induction H as [|t r o H IH|ws b r o EB H IH|ws r o EB H IH|i g b r o1 o2 HL EB H1 IH1 H2 IH2|i g r o HL EB H IH|x v r o HD HV H IH|x v r o HD HV H IH];
    intros p' H'; try (inversion HB as [|? ? HI HR]; subst; clear HB).
  - inversion H'. reflexivity.
  - inversion H'; subst; try discriminate. f_equal. auto.
  - inversion H'; subst; try discriminate; try congruence. auto.
  - inversion H'; subst; try discriminate; try congruence. f_equal. auto.
  - inversion H'; subst; try discriminate; try congruence. f_equal; [|auto]. assert (g0 = g) as -> by congruence. assert (b0 = b) as -> by congruence. apply IH1; auto. apply (HS g); auto.
  - inversion H'; subst; try discriminate; try congruence. f_equal. auto.
  - inversion H' as [| | | | | |? w ? ? HD' HV'|? w ? ? HD' HV']; subst; try discriminate; auto.
    exfalso. destruct (strtol0_denotes _ _ HD) as [_ EA], (strtol0_denotes _ _ HD') as [_ EC]. assert (N.min v (2 ^ 63 - 1) = N.min w (2 ^ 63 - 1)) by congruence. lia.
  - inversion H' as [| | | | | |? w ? ? HD' HV'|? w ? ? HD' HV']; subst; try discriminate; [|f_equal; auto].
    exfalso. destruct (strtol0_denotes _ _ HD) as [_ EA], (strtol0_denotes _ _ HD') as [_ EC]. assert (N.min v (2 ^ 63 - 1) = N.min w (2 ^ 63 - 1)) by congruence. lia.
Qed.
Print Assumptions C75_one_program.

(* ---- C75: files that load each other in a circle are never read to the end ---- *)
Theorem C75_cycle : forall src P main, sources_ok src -> load_cycle src P -> P main ->
  (forall b t r, src main = Some b -> b = IPlain t :: r -> t <> TError) -> forall n, compile n (files src) main = None.
Proof. intros src P main HS HP HM HB n. apply (cycle_endless src HS P); auto. Qed.
Print Assumptions C75_cycle.

(* ---- C75: a token that is put back is read again, and nothing else changes ---- *)
Lemma get_last n fs : forall st t st', getNextToken n fs st = PTok t true st' ->
  pp_last st' = t /\ pp_un st' = false /\ t <> TUse /\ t <> TLoad /\ t <> TUlam.
Proof.
  induction n as [|n IH]; intros st t st' E; [discriminate|]. cbn [getNextToken] in E.
  destruct (if pp_un st then _ else _) as [u st1] eqn:EU.
  assert (pp_last st1 = u /\ pp_un st1 = false) as [HL HU].
  { destruct (pp_un st); [injection EU as <- <-; auto|]. destruct (lex st) as [[v k] st2]. injection EU as <- <-. auto. }
  destruct u; try (injection E as <- <-; repeat split; auto; discriminate).
  - destruct (packageName n [] st1) as [[[ok name] st2]|]; [|discriminate]. destruct (ok && fexists fs name st2); [eauto|discriminate].
  - destruct (packageName n [] st1) as [[[ok name] st2]|]; [|discriminate]. destruct (if ok then _ else _) as [[ok' name'] st3].
    destruct ok'; [|discriminate]. destruct (push fs name' false st3); [eauto|discriminate].
  - destruct (getNextToken n fs st1) as [| |nt ok st2]; try discriminate.
    destruct (match nt with TNumber s => _ | _ => _ end) as [[good st3]|]; [|discriminate].
    destruct (getNextToken n fs st3) as [| |q ok2 st4]; try discriminate. destruct good; [|discriminate]. destruct q; try discriminate. eauto.
Qed.
Theorem C75_unread : forall n fs st t st', getNextToken n fs st = PTok t true st' ->
  forall m, getNextToken (S m) fs (unread_pp st') = PTok t true st'.
Proof.
  intros n fs st t st' E m. destruct (get_last n fs st t st' E) as (HL & HU & H1 & H2 & H3). destruct st' as [a b c d e f g h i]. cbn in HL, HU. subst.
  cbn. destruct t; congruence || reflexivity.
Qed.
Print Assumptions C75_unread.

(* three files: P uses Q, loads lib/R.ulam and "extra.inc", and says ulam 5 *)
Definition ex_src : sources := fun f =>
  if text_eqb f (txt "P.ulam") then Some [IVersion (txt "5"); IUse [txt "Q"]; IPlain (TOther 1); ILoad [txt "lib"; txt "R"]; IPlain (TOther 2); ILoadFile (txt "extra.inc"); IUse [txt "Missing"]; IVersion (txt "0x10"); IPlain (TOther 3)]
  else if text_eqb f (txt "Q.ulam") then Some [IPlain (TOther 9)]
  else if text_eqb f (txt "lib/R.ulam") then Some [IPlain (TWord (txt "r")); ILoadFile (txt "extra.inc"); IPlain TSemi]
  else if text_eqb f (txt "extra.inc") then Some [IPlain TDot; IPlain (TNumber (txt "7"))]
  else if text_eqb f (txt "A.ulam") then Some [IPlain (TOther 1); ILoad [txt "B"]]
  else if text_eqb f (txt "B.ulam") then Some [IPlain (TOther 2); ILoad [txt "A"]]
  else None.
Lemma ex_src_ok : sources_ok ex_src.
Proof.
  intros f b E. unfold ex_src in E.
  assert (denotes (txt "5") 5) as D5 by (apply (den_dec 5 []); [lia|repeat constructor]).
  assert (denotes (txt "0x10") 16) as D16 by (apply (den_hex [1; 0]); [discriminate|repeat constructor]).
  repeat match type of E with (if ?c then _ else _) = _ => destruct c end; try discriminate; injection E as <-;
    repeat constructor; cbn; try discriminate; try lia; try (exists 5; split; [exact D5|lia]); try (exists 16; split; [exact D16|lia]).
Qed.
Example C75_ex :
  sources_ok ex_src /\
  compile 60 (files ex_src) (txt "P.ulam") =
    Some [TOther 1; TWord (txt "r"); TDot; TNumber (txt "7"); TSemi; TOther 2; TDot; TNumber (txt "7"); TError; TError; TOther 3] /\
  load_cycle ex_src (fun f => f = txt "A.ulam" \/ f = txt "B.ulam").
Proof.
  split; [exact ex_src_ok|]. split; [vm_compute; reflexivity|]. intros f [-> | ->].
  - exists [IPlain (TOther 1); ILoad [txt "B"]], (ILoad [txt "B"]), (txt "B.ulam"). split; [reflexivity|]. split; [cbn; auto|]. split; [reflexivity|auto].
  - exists [IPlain (TOther 2); ILoad [txt "A"]], (ILoad [txt "A"]), (txt "A.ulam"). split; [reflexivity|]. split; [cbn; auto|]. split; [reflexivity|auto].
Qed.

(* ---- C75, where it fails ---- *)
Definition one (f : string) (toks : list rtok) (abrupt : bool) : text -> option file := fun g => if text_eqb g (txt f) then Some (mkFile toks abrupt) else None.
Definition two (f : string) (toks : list rtok) (g : string) (toks' : list rtok) : text -> option file :=
  fun h => if text_eqb h (txt f) then Some (mkFile toks false) else if text_eqb h (txt g) then Some (mkFile toks' false) else None.

(* a version number is cut to 32 bits: version 4294967297 passes for 1 *)
Theorem C75_version_refuted : denotes (txt "4294967297") 4294967297 /\
  compile 20 (one "P.ulam" [TUlam; TNumber (txt "4294967297"); TSemi; TOther 1] false) (txt "P.ulam") = Some [TOther 1].
Proof.
  split; [|vm_compute; reflexivity]. apply (den_dec 4 [2; 9; 4; 9; 6; 7; 2; 9; 7]); [lia|repeat constructor].
Qed.
Print Assumptions C75_version_refuted.

(* names may lack dots, and a quoted name after some words is glued to them *)
Theorem C75_name_refuted :
  compile 20 (two "P.ulam" [TLoad; TWord (txt "a"); TWord (txt "b"); TSemi] "ab.ulam" [TOther 7]) (txt "P.ulam") = Some [TOther 7] /\
  compile 20 (two "P.ulam" [TLoad; TWord (txt "a"); TQuoted (txt "b"); TSemi] "ab" [TOther 7]) (txt "P.ulam") = Some [TOther 7] /\
  compile 20 (two "P.ulam" [TLoad; TDot; TDot; TSemi] "//.ulam" [TOther 7]) (txt "P.ulam") = Some [TOther 7].
Proof. split; [|split]; vm_compute; reflexivity. Qed.
Print Assumptions C75_name_refuted.

(* a directive may be interrupted by others, and may end in another file *)
Theorem C75_interrupted_refuted :
  compile 20 (two "P.ulam" [TUlam; TLoad; TWord (txt "Q"); TSemi; TSemi; TOther 1] "Q.ulam" [TNumber (txt "3")]) (txt "P.ulam") = Some [TOther 1] /\
  compile 20 (two "P.ulam" [TLoad; TWord (txt "Q"); TSemi; TWord (txt "P"); TSemi] "Q.ulam" [TUse]) (txt "P.ulam") = Some [].
Proof. split; vm_compute; reflexivity. Qed.
Print Assumptions C75_interrupted_refuted.

(* a file that ends right after "ulam 3" makes the compiler use the top of an empty stack *)
Theorem C75_fault_refuted : forall st, push (one "P.ulam" [TUlam; TNumber (txt "3")] true) (txt "P.ulam") true init_pst = Some st ->
  getNextToken 20 (one "P.ulam" [TUlam; TNumber (txt "3")] true) st = PFault.
Proof. intros st E. vm_compute in E. injection E as <-. vm_compute. reflexivity. Qed.
Print Assumptions C75_fault_refuted.

(* a file that begins with something that is not a token stops the compiler by an assertion *)
Theorem C75_first_refuted : forall st, push (one "P.ulam" [TError; TOther 1] false) (txt "P.ulam") true init_pst = Some st -> peekFirstToken st = None.
Proof. intros st E. vm_compute in E. injection E as <-. vm_compute. reflexivity. Qed.
Print Assumptions C75_first_refuted.

(* an error that is put back is another error, read from the tokens after it *)
Theorem C75_unread_refuted : forall st, push (one "P.ulam" [TUse; TWord (txt "Q"); TSemi; TWord (txt "R"); TSemi; TOther 1] false) (txt "P.ulam") true init_pst = Some st ->
  match getNextToken 20 (one "P.ulam" [TUse; TWord (txt "Q"); TSemi; TWord (txt "R"); TSemi; TOther 1] false) st with
  | PTok TError false st1 =>
    match getNextToken 20 (one "P.ulam" [TUse; TWord (txt "Q"); TSemi; TWord (txt "R"); TSemi; TOther 1] false) (unread_pp st1) with
    | PTok TError false st2 => drain 20 (one "P.ulam" [TUse; TWord (txt "Q"); TSemi; TWord (txt "R"); TSemi; TOther 1] false) st2 = Some [TOther 1]
    | _ => False
    end
  | _ => False
  end.
Proof. intros st E. vm_compute in E. injection E as <-. vm_compute. reflexivity. Qed.
Print Assumptions C75_unread_refuted.
