(* MangleParams.v: parameters that are template instances with user strings among their arguments (C28). *)
From Coq Require Import String List NArith ZArith Lia Bool.
From Coq Require Import ZifyBool ZifyNat ZifyN.
From Verif Require Import Base LeximitedModel LeximitedSpec LeximitedProofs LeximitedTheorems BitVec UTypeModel AtomModel AtomSpec AtomProofs PrimModel PrimSpec PrimProofs StringPoolModel StringPoolProofs MangleModel MangleSpec MangleProofs MangleTheorems MangleStrings.
Import ListNotations.
Ltac Zify.zify_post_hook ::= Z.div_mod_to_equations.
Open Scope N_scope.

(* a user string that is not empty: the empty one is stored as its NUL alone *)
Definition text_arg (a : arg) : Prop := string_arg a /\ a_val a <> AStrings [[0]].
Definition written_arg (a : arg) : Prop := number_arg a \/ text_arg a.

(* as known_param of MangleSpec.v, with the arguments that are allowed as a parameter *)
Definition known_with (ok : arg -> Prop) (templ : text -> option nat) (p : ptype) : Prop :=
  match p with
  | PPlain t => complete_sizes t
  | PClass name t args =>
    complete_sizes t /\ is_class_name name /\
    match args, templ name with
    | None, None => True
    | Some l, Some n => List.length l = n /\ N.of_nat n < 2 ^ 32 /\ Forall ok l
    | _, _ => False
    end
  end.

Lemma written_args_inj a b x y r r' : written_arg a -> written_arg b -> argText a = Some x -> argText b = Some y -> x ++ r = y ++ r' ->
  same_arg a b /\ r = r'.
Proof.
  intros HA HB EX EY E.
  assert (forall a, written_arg a -> complete_sizes (a_ty a)) as HS.
  { intros c [H|[H _]]; apply good_sizes; [left|right]; auto. }
  assert (forall a x, argText a = Some x -> exists v, x = mangledType (a_ty a) ++ v) as HT.
  { intros c z EZ. unfold argText in EZ. match type of EZ with match ?m with _ => _ end = _ => destruct m end; [|discriminate]. injection EZ as <-. eauto. }
  destruct (HT _ _ EX) as (v & EV). destruct (HT _ _ EY) as (v' & EV').
  assert (same_plain (a_ty a) (a_ty b) /\ v ++ r = v' ++ r') as [HP E'].
  { rewrite EV, EV', <- !app_assoc in E. apply C27_type_names_distinct in E; auto. }
  destruct HA as [NA|SA].
  - assert (number_arg b) as NB.
    { destruct HB as [H1|H1]; auto. destruct H1 as [[H1 _] _]. destruct HP as [H2 _]. destruct NA as [NA _]. rewrite H2, H1 in NA.
      unfold primitive, arith in NA. exfalso. intuition discriminate. }
    exact (number_args_inj a b x y r r' NA NB EX EY E).
  - assert (text_arg b) as SB.
    { destruct HB as [H1|H1]; auto. destruct SA as [[SA _] _]. destruct HP as [H2 _]. destruct H1 as [H1 _]. rewrite <- H2, SA in H1.
      unfold primitive, arith in H1. exfalso. intuition discriminate. }
    destruct SA as [SA NA]. destruct SB as [SB NB].
    destruct (string_arg_text a x SA EX) as (b0 & s0 & V0 & F0 & G0 & X0).
    destruct (string_arg_text b y SB EY) as (b1 & s1 & V1 & F1 & G1 & X1).
    rewrite EV in X0. apply app_inv_head in X0. rewrite EV' in X1. apply app_inv_head in X1. subst v v'.
    rewrite V0 in NA. rewrite V1 in NB.
    destruct (stored_text b0 s0 G0) as [(-> & -> & T0) | (N0 & -> & L0 & T0)]; [exfalso; apply NA; reflexivity|].
    destruct (stored_text b1 s1 G1) as [(-> & -> & T1) | (N1 & -> & L1 & T1)]; [exfalso; apply NB; reflexivity|].
    rewrite T0, T1, <- !app_assoc in E'.
    destruct (app_len_inj _ _ _ _ (hexByte_len _ _ _ _ L0 L1 E') E') as [E3 E4]. apply hexByte_inj in E3; auto.
    assert (List.length b0 = List.length b1) as EL by lia.
    destruct (hexBytes_inj b0 b1 r r' EL F0 F1 E4) as [<- <-]. split; auto. split; auto. unfold same_value. rewrite V0, V1. reflexivity.
Qed.

Lemma param_inj_written templ p q x y r r' : known_with written_arg templ p -> known_with written_arg templ q ->
  paramText p = Some x -> paramText q = Some y -> x ++ r = y ++ r' -> same_param p q /\ r = r'.
Proof.
  intros HP HQ EX EY E.
  assert (forall name t args z, known_with written_arg templ (PClass name t args) -> paramText (PClass name t args) = Some z ->
            exists w, z = mangledClassType name t ++ w) as HC.
  { intros name t [l|] z _ EZ; cbn [paramText] in EZ.
    - destruct (formatArgs (isAltRefType t) l) as [s|]; [|discriminate]. injection EZ as <-. eauto.
    - injection EZ as <-. eauto. }
  destruct p as [t|name t args], q as [t'|name' t' args'].
  - cbn [paramText] in EX, EY. injection EX as <-. injection EY as <-. apply C27_type_names_distinct in E; auto.
  - exfalso. destruct (HC _ _ _ _ HQ EY) as (w & ->). cbn [paramText] in EX. injection EX as <-.
    cbn [known_with] in *. rewrite <- app_assoc in E. apply C27_class_is_not_plain in E; tauto.
  - exfalso. destruct (HC _ _ _ _ HP EX) as (w & ->). cbn [paramText] in EY. injection EY as <-.
    cbn [known_with] in *. symmetry in E. rewrite <- app_assoc in E. apply C27_class_is_not_plain in E; tauto.
  - destruct (HC _ _ _ _ HP EX) as (w & EW). destruct (HC _ _ _ _ HQ EY) as (w' & EW'). subst x y.
    destruct HP as (HS & HN & HA). destruct HQ as (HS' & HN' & HA').
    rewrite <- !app_assoc in E. apply C27_class_names_distinct in E; auto. destruct E as (<- & HSH & E).
    cbn [same_param]. destruct args as [l|], args' as [l'|]; destruct (templ name) as [k|]; try contradiction.
    + cbn [paramText] in EX, EY.
      destruct (formatArgs (isAltRefType t) l) as [s|] eqn:F1; [|discriminate]. injection EX as EX. apply app_inv_head in EX. subst w.
      destruct (formatArgs (isAltRefType t') l') as [s'|] eqn:F2; [|discriminate]. injection EY as EY. apply app_inv_head in EY. subst w'.
      unfold formatArgs in F1, F2.
      destruct (sequence (map argText l)) as [u|] eqn:U1; [|discriminate]. injection F1 as <-.
      destruct (sequence (map argText l')) as [u'|] eqn:U2; [|discriminate]. injection F2 as <-.
      destruct HA as (HL & Hk & HF). destruct HA' as (HL' & _ & HF').
      assert (forall k0 z z', k0 < two64 -> ToLeximitedNumber32u k0 ++ z <> 114 :: z') as HNR.
      { intros k0 z z' Hk0 EE. pose proof (read_unsigned_ok k0 z Hk0) as A. change (ToLeximitedNumberU k0) with (ToLeximitedNumber32u k0) in A.
        rewrite EE in A. cbn in A. discriminate. }
      rewrite HL, HL' in E. rewrite <- !app_assoc in E.
      assert (u32 (N.of_nat k) < two64) as HK by (unfold u32, two32, two64; lia).
      destruct (isAltRefType t), (isAltRefType t'); cbn [app] in E.
      * injection E as E. apply app_inv_head in E.
        destruct (sequence_inj argText written_arg same_arg written_args_inj l l' u u' r r') as [G1 G2]; auto; congruence.
      * exfalso. symmetry in E. exact (HNR _ _ _ HK E).
      * exfalso. exact (HNR _ _ _ HK E).
      * apply app_inv_head in E.
        destruct (sequence_inj argText written_arg same_arg written_args_inj l l' u u' r r') as [G1 G2]; auto; congruence.
    + cbn [paramText] in EX, EY. injection EX as EX. injection EY as EY. apply app_inv_head in EX. apply app_inv_head in EY. subst w w'.
      apply app_inv_head in E. auto.
Qed.

(* C28: with user strings, none of them empty, among the arguments of template instances, the generated name of a function
   still determines its name and its parameters *)
Theorem C28_strings_partial : forall templ name name' ps ps' x,
  N.of_nat (List.length name) < 2 ^ 32 -> N.of_nat (List.length name') < 2 ^ 32 ->
  N.of_nat (List.length ps) < 2 ^ 32 -> N.of_nat (List.length ps') < 2 ^ 32 ->
  Forall (known_with written_arg templ) ps -> Forall (known_with written_arg templ) ps' ->
  getMangledNameWithTypes name ps = Some x -> getMangledNameWithTypes name' ps' = Some x ->
  name = name' /\ Forall2 same_param ps ps'.
Proof.
  intros templ name name' ps ps' x HN HN' HL HL' HF HF' EX EY. unfold getMangledNameWithTypes in *.
  destruct (sequence (map paramText ps)) as [s|] eqn:E1; [|discriminate]. injection EX as <-.
  destruct (sequence (map paramText ps')) as [s'|] eqn:E2; [|discriminate]. injection EY as E.
  symmetry in E. apply ToLeximited_prefix_free in E; auto. destruct E as [-> E]. split; auto.
  unfold u32 in E. change (2 ^ 32) with two32 in *. rewrite !N.mod_small in E by auto.
  apply C02_unsigned64_injective in E; try (unfold two32 in *; lia). destruct E as [EL ->].
  refine (proj1 (sequence_inj paramText (known_with written_arg templ) same_param (param_inj_written templ) ps ps' s' s' [] [] HF HF' _ E1 E2 eq_refl)). lia.
Qed.
Print Assumptions C28_strings_partial.

(* Foo(String s), its string stored with its length first and a NUL last *)
Definition one_string (s : text) : option nat := if text_eqb s (txt "Foo") then Some 1%nat else None.
Definition foo_of (stored : text) : ptype :=
  PClass (txt "Foo") (mkTy EClass 7 (-1) AltNot CQuark 3 100 false 0) (Some [mkArg (prim EString 18 (-1)) (AStrings [stored])]).

Lemma foo_known (ok : arg -> Prop) b s : format_user b = Some s -> Forall (fun c => c < 256) b ->
  (string_arg (mkArg (prim EString 18 (-1)) (AStrings [s])) -> ok (mkArg (prim EString 18 (-1)) (AStrings [s]))) ->
  known_with ok one_string (foo_of s).
Proof.
  intros HS HF HO. split; [unfold complete_sizes; cbn; lia|].
  split; [split; [exists 70, (txt "oo"); split; [reflexivity|lia]|cbn; lia]|].
  cbn. split; [reflexivity|]. split; [lia|]. apply Forall_cons; [|constructor]. apply HO.
  split; [reflexivity|]. split; [reflexivity|]. split; [reflexivity|]. split; [reflexivity|]. exists b, s. auto.
Qed.

(* C28 is false with an empty string: the text of the string in the last parameter of one overload is the text of six Bool
   parameters of the other. f(Foo(""), Bool(1)[1], Bool(1) x 5, Foo(s)) and f(Foo(s), Foo(""), Bool(1)[1], Bool(1) x 5)
   for a string s of 17 characters get one name *)
Definition clash_user : text := [17; 27] ++ [16; 17; 27] ++ [16; 17; 27] ++ [16; 17; 27] ++ [16; 17; 27] ++ [16; 17; 27].
Definition clash_bools : list ptype :=
  PPlain (prim EBool 1 1) :: repeat (PPlain (prim EBool 1 (-1))) 5.

Theorem C28_empty_string_refuted : exists s ps ps' x,
  format_user clash_user = Some s /\
  ps = foo_of [0] :: clash_bools ++ [foo_of s] /\ ps' = foo_of s :: foo_of [0] :: clash_bools /\
  Forall (known_with good_arg one_string) ps /\ Forall (known_with good_arg one_string) ps' /\
  getMangledNameWithTypes (txt "f") ps = Some x /\ getMangledNameWithTypes (txt "f") ps' = Some x /\
  ~ Forall2 same_param ps ps'.
Proof.
  destruct (format_user clash_user) as [s|] eqn:ES; [|vm_compute in ES; discriminate].
  assert (format_user [] = Some [0]) as E0 by reflexivity.
  assert (known_with good_arg one_string (foo_of s)) as K1.
  { apply (foo_known _ clash_user); auto; [repeat (apply Forall_cons; [lia|]); constructor|right; auto]. }
  assert (known_with good_arg one_string (foo_of [0])) as K0.
  { apply (foo_known _ []); auto. right; auto. }
  assert (Forall (known_with good_arg one_string) clash_bools) as KB.
  { unfold clash_bools. cbn [repeat]. repeat (apply Forall_cons; [split; cbn; lia|]). constructor. }
  exists s, (foo_of [0] :: clash_bools ++ [foo_of s]), (foo_of s :: foo_of [0] :: clash_bools).
  destruct (getMangledNameWithTypes (txt "f") (foo_of s :: foo_of [0] :: clash_bools)) as [x|] eqn:EX.
  - exists x. split; [reflexivity|]. split; [reflexivity|]. split; [reflexivity|].
    split; [apply Forall_cons; auto; apply Forall_app; split; auto|]. split; [apply Forall_cons; auto|].
    split; [|split; [reflexivity|]].
    + rewrite <- EX. vm_compute in ES. injection ES as <-. vm_compute. reflexivity.
    + intros H. assert (same_param (foo_of [0]) (foo_of s)) as HS by (inversion H; auto).
      unfold foo_of, same_param in HS. destruct HS as (_ & _ & HS). inversion HS as [|? ? ? ? HV]; subst.
      destruct HV as [_ HV]. unfold same_value in HV. cbn [a_val] in HV. vm_compute in ES. injection ES as <-. discriminate.
  - exfalso. vm_compute in ES. injection ES as <-. vm_compute in EX. discriminate.
Qed.
Print Assumptions C28_empty_string_refuted.

Example C28_strings_ex :
  Forall (known_with written_arg one_string) [foo_of [2; 104; 105; 0]; PPlain (prim EBool 1 (-1))] /\
  getMangledNameWithTypes (txt "f") [foo_of [2; 104; 105; 0]; PPlain (prim EBool 1 (-1))] = Some (txt "Uf_1f1210173Foo11102181s02686910111b").
Proof.
  split; [|vm_compute; reflexivity]. apply Forall_cons; [|apply Forall_cons; [split; cbn; lia|constructor]].
  apply (foo_known _ (txt "hi")); [reflexivity|repeat constructor|]. intros H. right. split; auto. cbn. discriminate.
Qed.
