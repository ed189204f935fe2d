(* PrintfTheorems.v: C110. *)
From Coq Require Import String List NArith ZArith Lia Bool.
From Coq Require Import ZifyBool ZifyNat ZifyN.
From Verif Require Import Base BitVec UTypeModel AtomModel AtomSpec PrimModel PrimSpec PrimProofs PrintfModel PrintfSpec.
Import ListNotations.
Open Scope N_scope.

(* the arguments as a call hands them over *)
Definition terminated (a : list vobj) : list (option vobj) := map Some a ++ [None].

Lemma raw_meaning n r : Z.of_N (r mod 2 ^ n) = meaning EBits (bits_of n r).
Proof.
  destruct (N.eq_dec n 0) as [->|H]. { unfold bits_of. cbn. rewrite N.mod_1_r. reflexivity. }
  unfold bits_of. rewrite <- ext_val_meaning; [|right; right; reflexivity|lia]. cbn [ext_val]. rewrite N2Z.inj_mod, N2Z.inj_pow. reflexivity.
Qed.
Lemma int_meaning n r : 1 <= n -> ext_val EInt (Z.of_N n) (r mod 2 ^ n) = meaning EInt (bits_of n r).
Proof.
  intros H. unfold bits_of. rewrite <- ext_val_meaning; [|left; left; reflexivity|lia]. cbn [ext_val]. unfold SignExtend.
  rewrite N2Z.inj_mod, N2Z.inj_pow. rewrite Z.mod_mod by (apply Z.pow_nonzero; lia). reflexivity.
Qed.
Lemma inbase_other e n r f : e <> EInt -> printinbase e n r f = Num (meaning EBits (bits_of n r)) f.
Proof. intros H. unfold printinbase. rewrite raw_meaning. destruct e, (n <=? 32); try reflexivity; congruence. Qed.
Lemma inbase_int n r f : 1 <= n -> printinbase EInt n r f = Num (meaning EInt (bits_of n r)) f.
Proof. intros H. unfold printinbase. rewrite int_meaning by assumption. destruct (n <=? 32); reflexivity. Qed.
Lemma convert_writes w pool c x e : writes pool c x e -> convert w pool c x = ([e], Done).
Proof.
  intros H. destruct H; unfold convert; cbn [o_type o_raw]; cbn [base_of N.eqb Pos.eqb].
  1-4: rewrite inbase_other by assumption; reflexivity.
  1-4: rewrite inbase_int by assumption; reflexivity.
  - destruct (N.ltb_spec 32 n); [lia|]. rewrite <- raw_meaning, N2Z.id. reflexivity.
  - rewrite H. reflexivity.
Qed.
Lemma printf_lit w pool b p ap : b <> 0 -> b <> 37 -> printf w pool (b :: p) ap = before [Byte b] (printf w pool p ap).
Proof. intros H1 H2. cbn [printf]. destruct (N.eqb_spec b 0); [contradiction|]. destruct (N.eqb_spec b 37); [contradiction|]. reflexivity. Qed.
Lemma printf_pct w pool p ap : printf w pool (37 :: 37 :: p) ap = before [Byte 37] (printf w pool p ap).
Proof. reflexivity. Qed.
Lemma printf_conv w pool c p x ap : c <> 0 -> c <> 37 -> printf w pool (37 :: c :: p) (Some x :: ap) =
  match convert w pool c x with (e, Done) => before e (printf w pool p ap) | r => r end.
Proof. intros H1 H2. cbn [printf]. change (37 =? 0) with false. change (37 =? 37) with true. cbn [negb].
  destruct (N.eqb_spec c 0); [contradiction|]. destruct (N.eqb_spec c 37); [contradiction|]. reflexivity. Qed.
Lemma printf_conv_null w pool c p ap : c <> 0 -> c <> 37 -> printf w pool (37 :: c :: p) (None :: ap) = ([], OutOfBounds).
Proof. intros H1 H2. cbn [printf]. change (37 =? 0) with false. change (37 =? 37) with true. cbn [negb].
  destruct (N.eqb_spec c 0); [contradiction|]. destruct (N.eqb_spec c 37); [contradiction|]. reflexivity. Qed.

Lemma fmt_cons x l : format (x :: l) = spelt x ++ format l.
Proof. reflexivity. Qed.
Lemma prints_run w pool l a o a' rest tl : prints pool l a o a' -> Forall well_formed l ->
  printf w pool (format l ++ rest) (map Some a ++ tl) = before o (printf w pool rest (map Some a' ++ tl)).
Proof.
  intros H. induction H as [a|b l a o a' H IH|l a o a' H IH|c x e l a o a' Hw H IH]; intros W.
  - cbn. destruct (printf w pool rest (map Some a ++ tl)). reflexivity.
  - inversion W as [|? ? W0 W']; subst. cbn [well_formed] in W0. destruct W0 as [W1 W2]. rewrite fmt_cons. cbn [spelt app]. rewrite printf_lit by assumption.
    rewrite (IH W'). reflexivity.
  - inversion W as [|? ? W1 W']; subst. rewrite fmt_cons. cbn [spelt app]. rewrite printf_pct. rewrite (IH W'). reflexivity.
  - inversion W as [|? ? W0 W']; subst. cbn [well_formed] in W0. destruct W0 as [W1 W2]. rewrite fmt_cons. cbn [spelt map app]. rewrite printf_conv by assumption.
    rewrite (convert_writes w _ _ _ _ Hw). rewrite (IH W'). reflexivity.
Qed.

(* printf writes the pieces of the format in order, each conversion writing the next argument; arguments too many are not looked at *)
Theorem C110_prints w pool l a o a' : Forall well_formed l -> prints pool l a o a' -> printf w pool (format l) (terminated a) = (o, Done).
Proof.
  intros W H. pose proof (prints_run w pool l a o a' [] [None] H W) as R. rewrite app_nil_r in R. unfold terminated. rewrite R.
  unfold before. cbn. rewrite app_nil_r. reflexivity.
Qed.
Print Assumptions C110_prints.

(* a conversion without an argument: everything before it is written, then the event fails *)
Theorem C110_short w pool l a o c rest : Forall well_formed l -> prints pool l a o [] -> c <> 0 -> c <> 37 ->
  printf w pool (format l ++ [37; c] ++ rest) (terminated a) = (o, OutOfBounds).
Proof.
  intros W H C1 C2. unfold terminated. rewrite (prints_run w pool l a o [] _ [None] H W). cbn [map app].
  rewrite printf_conv_null by assumption. unfold before. cbn. rewrite app_nil_r. reflexivity.
Qed.
Print Assumptions C110_short.

(* a lone percent sign at the end of the format, be it the end of the string or a zero byte: what is before it is written, then the event fails *)
Theorem C110_lone w pool l a o a' rest : Forall well_formed l -> prints pool l a o a' -> rest = [] \/ hd 1 rest = 0 ->
  printf w pool (format l ++ 37 :: rest) (terminated a) = (o, IllegalArgument).
Proof.
  intros W H R. unfold terminated. rewrite (prints_run w pool l a o a' _ [None] H W).
  assert (E : forall ap, printf w pool (37 :: rest) ap = ([], IllegalArgument)).
  { intros ap. destruct rest as [|c r]; [reflexivity|]. destruct R as [R|R]; [discriminate|]. cbn [hd] in R. subst c. reflexivity. }
  rewrite E. unfold before. cbn. rewrite app_nil_r. reflexivity.
Qed.
Print Assumptions C110_lone.

(* the argument list is never read behind its end *)
Theorem C110_no_overrun w pool p : forall a, snd (printf w pool p (terminated a)) <> Overrun.
Proof.
  assert (C : forall c x, snd (convert w pool c x) <> Overrun).
  { intros c [t r]. unfold convert. cbn [o_type o_raw]. destruct t as [[[e n]|]|]; [| |discriminate]; destruct (base_of c); try discriminate;
      destruct (c =? 99), (c =? 115); try discriminate; try (destruct (32 <? n); discriminate); try (destruct w; discriminate);
      destruct e; try discriminate; destruct (pool r); discriminate. }
  assert (forall n p, (length p <= n)%nat -> forall a, snd (printf w pool p (terminated a)) <> Overrun) as H.
  2:{ intros a. apply (H (length p)). lia. }
  clear p. induction n as [|n IH]; intros p L a.
  { destruct p; cbn [length] in L; [discriminate|lia]. }
  destruct p as [|ch p]; [discriminate|]. cbn [length] in L. cbn [printf]. destruct (ch =? 0); [discriminate|].
  destruct (negb (ch =? 37)). { apply IH. lia. }
  destruct p as [|c2 p]; [discriminate|]. cbn [length] in L. destruct (c2 =? 0); [discriminate|]. destruct (c2 =? 37). { apply IH. lia. }
  destruct a as [|x a]; [discriminate|]. unfold terminated. cbn [map app]. pose proof (C c2 x) as Cx. destruct (convert w pool c2 x) as [e s].
  destruct s; try exact Cx. cbn [before snd]. apply IH. lia.
Qed.
Print Assumptions C110_no_overrun.

(* a format without a percent sign writes itself *)
Theorem C110_plain w pool p a : Forall (fun b => b <> 0 /\ b <> 37) p -> printf w pool p (terminated a) = (map Byte p, Done).
Proof.
  induction p as [|b p IH]; intros H; [reflexivity|]. inversion H as [|? ? [H1 H2] H']; subst. rewrite printf_lit by assumption. rewrite (IH H'). reflexivity.
Qed.
Print Assumptions C110_plain.

(* a format that holds a zero byte is cut there: the rest is not written, though print writes all of such a string (C92) *)
Theorem C110_zero_refuted : exists p, printf true (fun _ => None) p (terminated []) = ([Byte 97], Done) /\ p = [97; 0; 98].
Proof. exists [97; 0; 98]. split; reflexivity. Qed.
Print Assumptions C110_zero_refuted.

(* %d of an Int, Unsigned or Bits argument hands over the number it stands for *)
Theorem C110_number w pool e n r : e = EInt \/ e = EUnsigned \/ e = EBits -> 1 <= n ->
  printf w pool (txt "%d") (terminated [mkObj (Some (Some (e, n))) r]) = ([Num (meaning e (bits_of n r)) DEC], Done).
Proof.
  intros He Hn. change (txt "%d") with (format [Conv 100]). eapply C110_prints.
  - repeat constructor; discriminate.
  - econstructor; [|constructor]. destruct He as [->|[->| ->]]; [constructor; assumption| |].
    + apply (W_dec pool EUnsigned). discriminate.
    + apply (W_dec pool EBits). discriminate.
Qed.
Print Assumptions C110_number.

(* but not of a Unary or a Bool: the pattern of the bits is handed over.  A Unary(3) of 2 comes out as 3, a Bool(3) true as 7 *)
Theorem C110_number_refuted : 
  (printf true (fun _ => None) (txt "%d") (terminated [mkObj (Some (Some (EUnary, 3))) 3]) = ([Num 3 DEC], Done) /\ meaning EUnary (bits_of 3 3) = 2%Z) /\
  (printf true (fun _ => None) (txt "%d") (terminated [mkObj (Some (Some (EBool, 3))) 7]) = ([Num 7 DEC], Done) /\ meaning EBool (bits_of 3 7) = 1%Z).
Proof. repeat split. Qed.
Print Assumptions C110_number_refuted.

(* a Unary is right exactly when it is 0 or 1 *)
Theorem C110_unary w pool n k : k <= n -> 1 <= n ->
  (printf w pool (txt "%d") (terminated [mkObj (Some (Some (EUnary, n))) (2 ^ k - 1)]) = ([Num (Z.of_N k) DEC], Done) <-> k <= 1).
Proof.
  intros Hk Hn. change (txt "%d") with (format [Conv 100]).
  rewrite (C110_prints w pool [Conv 100] _ [Num (Z.of_N ((2 ^ k - 1) mod 2 ^ n)) DEC] []).
  - assert (P : 2 ^ k <= 2 ^ n) by (apply N.pow_le_mono_r; lia). assert (P0 : 0 < 2 ^ k) by (apply N.neq_0_lt_0, N.pow_nonzero; lia).
    rewrite N.mod_small by lia. split; intros H.
    + assert (E : 2 ^ k - 1 = k) by (injection H; lia). destruct (N.le_gt_cases k 1) as [L|G]; [assumption|exfalso].
      pose proof (N.pow_gt_lin_r 2 (k - 1) ltac:(lia)) as Q. replace k with (N.succ (k - 1)) in E at 1 by lia. rewrite N.pow_succ_r' in E. lia.
    + assert (k = 0 \/ k = 1) as [->| ->] by lia; reflexivity.
  - repeat constructor; discriminate.
  - econstructor; [|constructor]. rewrite raw_meaning. constructor. discriminate.
Qed.
Print Assumptions C110_unary.

(* a conversion that is not known: the version of ByteStreamWriter says so in the text, takes an argument and goes on; the other fails *)
Definition known (c : N) : Prop := In c (txt "xbodcs%").
Theorem C110_unknown pool l a o x a' c rest t : Forall well_formed l -> prints pool l a o (x :: a') -> ~ known c -> c <> 0 -> o_type x = Some t ->
  printf true pool (format l ++ [37; c] ++ rest) (terminated a) = before (o ++ [Unhandled c]) (printf true pool rest (terminated a')) /\
  printf false pool (format l ++ [37; c] ++ rest) (terminated a) = (o, IncompleteCode).
Proof.
  intros W H K C0 T. assert (C1 : c <> 37) by (intros ->; apply K; vm_compute; tauto).
  assert (V : forall w, convert w pool c x = if w then ([Unhandled c], Done) else ([], IncompleteCode)).
  { intros w. unfold convert. rewrite T. assert (B : forall k, In k (txt "xbodcs%") -> (c =? k) = false) by (intros k I; destruct (N.eqb_spec c k); [subst; exfalso; exact (K I)|reflexivity]).
    unfold base_of. rewrite !B by (vm_compute; tauto). reflexivity. }
  unfold terminated. rewrite !(prints_run _ pool l a o (x :: a') _ [None] H W). cbn [map app]. rewrite !printf_conv by assumption. rewrite !V. split.
  - unfold before. cbn [fst snd]. rewrite <- app_assoc. reflexivity.
  - unfold before. cbn. rewrite app_nil_r. reflexivity.
Qed.
Print Assumptions C110_unknown.

(* the conversions write nothing but that: an argument that does not suit its conversion ends the event, with what is before it written *)
Definition sized (x : vobj) : Prop := forall e n, o_type x = Some (Some (e, n)) -> 1 <= n.
Theorem C110_unsuited w pool l a o x a' c rest : Forall well_formed l -> prints pool l a o (x :: a') -> known c -> c <> 37 -> sized x ->
  (forall e, ~ writes pool c x e) ->
  exists s, printf w pool (format l ++ [37; c] ++ rest) (terminated a) = (o, s) /\ s <> Done.
Proof.
  intros W H K C1 S N. unfold terminated. rewrite (prints_run _ pool l a o (x :: a') _ [None] H W). cbn [map app].
  assert (C0 : c <> 0) by (intros ->; vm_compute in K; intuition discriminate).
  rewrite printf_conv by assumption.
  assert (V : exists s, convert w pool c x = ([], s) /\ s <> Done).
  { destruct x as [[[[e n]|]|] r]; unfold convert; cbn [o_type o_raw].
    - pose proof (S e n eq_refl) as Hn. assert (I : e = EInt \/ e <> EInt) by (destruct e; (left; reflexivity) || (right; discriminate)). vm_compute in K.
      destruct K as [<-|[<-|[<-|[<-|[<-|[<-|[<-|[]]]]]]]]; cbn [base_of N.eqb Pos.eqb].
      1-4: exfalso; destruct I as [->|I]; eapply N; econstructor; eassumption.
      + destruct (N.ltb_spec 32 n); [eexists; split; [reflexivity|discriminate]|]. exfalso. eapply N. econstructor. eassumption.
      + destruct e; try (eexists; split; [reflexivity|discriminate]). destruct (pool r) eqn:P; [|eexists; split; [reflexivity|discriminate]].
        exfalso. eapply N. econstructor. eassumption.
      + congruence.
    - exists IllegalArgument. split; [|discriminate]. vm_compute in K.
      destruct K as [<-|[<-|[<-|[<-|[<-|[<-|[<-|[]]]]]]]]; try reflexivity. congruence.
    - exists IllegalState. split; [reflexivity|discriminate]. }
  destruct V as (s & V & Vs). exists s. rewrite V. split; [|assumption]. destruct s; try (unfold before; cbn; rewrite app_nil_r; reflexivity). congruence.
Qed.
Print Assumptions C110_unsuited.

(* a class has no number and no text: the event fails, with what is before it written *)
Theorem C110_class w pool l a o x a' c rest : Forall well_formed l -> prints pool l a o (x :: a') -> known c -> c <> 37 -> o_type x = Some None ->
  printf w pool (format l ++ [37; c] ++ rest) (terminated a) = (o, IllegalArgument).
Proof.
  intros W H K C1 T. unfold terminated. rewrite !(prints_run _ pool l a o (x :: a') _ [None] H W). cbn [map app].
  assert (V : convert w pool c x = ([], IllegalArgument) /\ c <> 0).
  { unfold convert. rewrite T. vm_compute in K. repeat (destruct K as [<-|K]; [split; [reflexivity|discriminate]|]). destruct K as [<-|[]]; congruence. }
  destruct V as [V C0]. rewrite printf_conv by assumption. rewrite V. unfold before. cbn. rewrite app_nil_r. reflexivity.
Qed.
Print Assumptions C110_class.

(* %s writes strings only *)
Theorem C110_string_only w pool e n r s : e <> EString ->
  printf w pool (txt "%s" ++ s) (terminated [mkObj (Some (Some (e, n))) r]) = ([], IllegalArgument).
Proof. intros H. destruct e; try reflexivity. congruence. Qed.
Print Assumptions C110_string_only.

(* the call: when no argument is refused and none is of an as-conditional, printf gets the arguments in order and their end *)
Theorem C110_call l : (forall x, In x l -> n_const x = true -> n_alt x = AltNot) -> (forall x, In x l -> n_alt x <> AltAs) ->
  refused 0 l = [] -> pointers l = Some (terminated (map n_obj l)).
Proof.
  generalize 0%nat. induction l as [|x l IH]; intros i H1 H2 H; [reflexivity|]. cbn [refused] in H. cbn [pointers map].
  pose proof (H1 x (or_introl eq_refl)) as X1. pose proof (H2 x (or_introl eq_refl)) as X2.
  assert (R : n_alt x = AltNot /\ refused (S i) l = []).
  { destruct (n_const x); [split; [apply X1; reflexivity|assumption]|]. destruct (n_alt x); try discriminate; try congruence. split; [reflexivity|assumption]. }
  destruct R as [-> R]. rewrite (IH (S i)); [reflexivity| | |assumption]; intros y Hy; [apply H1|apply H2]; right; assumption.
Qed.
Print Assumptions C110_call.

(* every reference that is not a constant is refused, with its index *)
Theorem C110_refused l : forall i j x, nth_error l j = Some x -> n_const x = false -> n_alt x = AltRef \/ n_alt x = AltConstref -> In (i + j)%nat (refused i l).
Proof.
  induction l as [|y l IH]; intros i [|j] x E Hc Ha; cbn [nth_error] in E; try discriminate.
  - injection E as ->. cbn [refused]. rewrite Hc. rewrite Nat.add_0_r. destruct Ha as [-> | ->]; left; reflexivity.
  - pose proof (IH (S i) j x E Hc Ha) as I. replace (i + S j)%nat with (S i + j)%nat by lia. cbn [refused].
    destruct (n_const y); [assumption|]. destruct (n_alt y); try assumption; right; assumption.
Qed.
Print Assumptions C110_refused.

(* the variable of an as-conditional is not refused, yet code generation aborts on it *)
Theorem C110_as_refuted : exists x, refused 0 [x] = [] /\ pointers [x] = None.
Proof. exists (mkNode false AltAs (mkObj (Some None) 0)). split; reflexivity. Qed.
Print Assumptions C110_as_refuted.

(* printf("a%x%%%d %s", (Unsigned(8)) 200, (Int(4)) -3, "hi", 7u) *)
Definition C110_pool (i : N) : option (list N) := if i =? 5 then Some (txt "hi") else None.
Definition C110_pieces : list piece := [Lit 97; Conv 120; Percent; Conv 100; Lit 32; Conv 115].
Definition C110_args : list vobj :=
  [mkObj (Some (Some (EUnsigned, 8))) 200; mkObj (Some (Some (EInt, 4))) 13; mkObj (Some (Some (EString, 32))) 5; mkObj (Some (Some (EUnsigned, 32))) 7].
Example C110_ex : Forall well_formed C110_pieces /\
  prints C110_pool C110_pieces C110_args [Byte 97; Num 200 HEX; Byte 37; Num (-3) DEC; Byte 32; Str (txt "hi")] [mkObj (Some (Some (EUnsigned, 32))) 7] /\
  printf true C110_pool (txt "a%x%%%d %s") (terminated C110_args) = ([Byte 97; Num 200 HEX; Byte 37; Num (-3) DEC; Byte 32; Str (txt "hi")], Done).
Proof.
  split; [repeat constructor; discriminate|]. split; [|reflexivity].
  constructor. eapply P_conv; [exact (W_hex C110_pool EUnsigned 8 200 ltac:(discriminate))|]. constructor.
  eapply P_conv; [exact (W_idec C110_pool 4 13 ltac:(lia))|]. constructor. eapply P_conv; [exact (W_str C110_pool 32 5 (txt "hi") eq_refl)|]. constructor.
Qed.
Example C110_short_ex : printf false C110_pool (txt "a%d") (terminated []) = ([Byte 97], OutOfBounds). Proof. reflexivity. Qed.
Example C110_unknown_ex : ~ known 113 /\ printf true C110_pool (txt "%q!") (terminated C110_args) = ([Unhandled 113; Byte 33], Done). 
Proof. split; [|reflexivity]. intros H. vm_compute in H. intuition discriminate. Qed.
Example C110_call_ex : refused 0 [mkNode true AltNot (mkObj (Some (Some (EInt, 32))) 1); mkNode false AltRef (mkObj (Some None) 0)] = [1%nat]. Proof. reflexivity. Qed.
Example C110_unsuited_ex : forall e, ~ writes C110_pool 115 (mkObj (Some (Some (EString, 32))) 6) e.
Proof. intros e H. inversion H. discriminate. Qed.
