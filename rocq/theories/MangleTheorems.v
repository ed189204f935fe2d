(* MangleTheorems.v: names of types (C27), of functions (C28) and of template instances (C54). *)
From Coq Require Import String List NArith ZArith Lia Bool.
From Coq Require Import ZifyBool ZifyNat ZifyN.
From Verif Require Import Base LeximitedModel LeximitedSpec LeximitedProofs LeximitedTheorems BitVec UTypeModel AtomModel AtomSpec AtomProofs PrimModel PrimSpec PrimProofs StringPoolModel MangleModel MangleSpec MangleProofs.
Import ListNotations.
Ltac Zify.zify_post_hook ::= Z.div_mod_to_equations.
Open Scope N_scope.

Lemma complete_32 t : complete_sizes t -> sizes32 t.
Proof. unfold complete_sizes, sizes32, in_s32. lia. Qed.

Lemma ref_iff t : isReference t = true <-> by_reference t.
Proof. unfold isReference, isAltRefType, by_reference. destruct (ty_ref t); cbn; split; congruence. Qed.

Lemma same_sizes t t' : complete_sizes t -> complete_sizes t' -> isReference t = isReference t' -> narr t = narr t' -> nbits t = nbits t' ->
  same_shape t t'.
Proof.
  unfold complete_sizes, same_shape, narr, nbits. intros H H' ER EA EB.
  split; [|split].
  - destruct (Z.leb_spec 0 (ty_arr t)), (Z.leb_spec 0 (ty_arr t')); lia.
  - lia.
  - rewrite <- !ref_iff, ER. reflexivity.
Qed.

(* C27: the name of a type, whatever follows it, determines the base type, the array size, the bit size and whether it
   is a reference *)
Theorem C27_type_names_distinct : forall t t' rest rest',
  complete_sizes t -> complete_sizes t' -> mangledType t ++ rest = mangledType t' ++ rest' ->
  same_plain t t' /\ rest = rest'.
Proof.
  intros t t' r r' H H' E. apply mangledType_inj in E; auto using complete_32. destruct E as (E1 & E2 & E3 & E4 & E5).
  split; auto. split; auto. apply same_sizes; auto.
Qed.
Print Assumptions C27_type_names_distinct.

(* and so does the name of a class type determine the class *)
Theorem C27_class_names_distinct : forall name name' t t' rest rest',
  complete_sizes t -> complete_sizes t' -> is_class_name name -> is_class_name name' ->
  mangledClassType name t ++ rest = mangledClassType name' t' ++ rest' ->
  name = name' /\ same_shape t t' /\ rest = rest'.
Proof.
  intros name name' t t' r r' H H' [_ HN] [_ HN'] E. unfold mangledClassType in E. rewrite <- !app_assoc in E.
  apply sizes_inj in E; auto using complete_32. destruct E as (E1 & E2 & E3 & E).
  apply ToLeximited_prefix_free in E; auto. destruct E as [E4 E]. split; auto. split; auto. apply same_sizes; auto.
Qed.
Print Assumptions C27_class_names_distinct.

(* no class type is named as another type *)
Theorem C27_class_is_not_plain : forall name t t' rest rest',
  complete_sizes t -> complete_sizes t' -> is_class_name name -> mangledType t ++ rest <> mangledClassType name t' ++ rest'.
Proof.
  intros name t t' r r' H H' [(c & s & -> & Hc) HN] E. unfold mangledClassType, mangledType in E. rewrite <- !app_assoc in E.
  apply sizes_inj in E; auto using complete_32. destruct E as (_ & _ & _ & E).
  apply ToLeximited_prefix_free in E; auto; try apply short_len. destruct E as [E4 _]. injection E4 as E4 _.
  destruct (ty_enum t); cbn in E4; lia.
Qed.
Print Assumptions C27_class_is_not_plain.

(* without completeness: an array of unknown size is named as a scalar *)
Theorem C27_unknown_array_size_refuted :
  mangledType (prim EInt 32 UNKNOWNSIZE) = mangledType (prim EInt 32 NONARRAYSIZE).
Proof. reflexivity. Qed.
Print Assumptions C27_unknown_array_size_refuted.

Example C27_ex :
  mangledType (prim EInt 32 (-1)) = txt "102321i" /\ mangledType (prim EUnsigned 3 0) = txt "n11131u" /\
  complete_sizes (prim EUnsigned 3 0) /\
  mangledClassType (txt "Foo") (mkTy EClass 7 10 AltRef CQuark 3 100 false 0) = txt "r210173Foo" /\ is_class_name (txt "Foo").
Proof.
  split; [reflexivity|]. split; [reflexivity|]. split; [unfold complete_sizes; cbn; lia|]. split; [reflexivity|].
  split; [exists 70, (txt "oo"); split; [reflexivity|lia]|cbn; lia].
Qed.

(* ---- template arguments ---- *)
Lemma number_arg_sizes a : number_arg a -> complete_sizes (a_ty a).
Proof.
  intros (_ & _ & n & items & _ & HB & Hn & _ & HA). unfold complete_sizes. rewrite HB.
  assert (2 ^ 31 = 2147483648)%Z as -> by reflexivity. nia.
Qed.

Lemma total_bits t n k : ty_bits t = Z.of_N n -> ty_arr t = Z.of_nat k -> (Z.of_N n * Z.of_nat k < 2 ^ 31)%Z ->
  getTotalBitSize t = (Z.of_N n * Z.of_nat k)%Z.
Proof.
  intros HB HA HL. unfold getTotalBitSize, NONARRAYSIZE, UNKNOWNSIZE. rewrite HB, HA.
  replace (Z.of_nat k >? -1)%Z with true by lia. replace (Z.of_N n =? -2)%Z with false by lia.
  apply u32z_small. assert (2 ^ 31 = 2147483648)%Z as H31 by reflexivity. rewrite H31 in HL. lia.
Qed.

(* the value of a number argument as text, item by item *)
Definition items_of (a : arg) : list N := match a_val a with AData l => l | _ => [] end.
Lemma number_arg_text a x : number_arg a -> argText a = Some x ->
  exists v, x = mangledType (a_ty a) ++ v /\
    (ty_arr (a_ty a) = 0%Z /\ v = txt "10" /\ items_of a = [] \/
     ty_arr (a_ty a) <> 0%Z /\ sequence (map (lexNumber (ty_enum (a_ty a)) (ty_bits (a_ty a))) (items_of a)) = Some v).
Proof.
  intros (HP & HR & n & items & HV & HB & Hn & HF & HA) E. unfold argText, items_of in *. rewrite HV in *.
  unfold isScalar, NONARRAYSIZE in E. destruct HA as [[HA HL] | [HA HL]].
  - rewrite HA in *. cbn [Z.eqb Pos.eqb negb] in E. destruct items as [|d [|? ?]]; cbn [List.length] in HL; try lia.
    destruct (lexNumber (ty_enum (a_ty a)) (ty_bits (a_ty a)) d) as [v|] eqn:EV; [|discriminate]. injection E as <-.
    exists v. split; auto. right. split; [lia|]. cbn [map sequence]. rewrite EV, app_nil_r. reflexivity.
  - assert (ty_arr (a_ty a) =? -1 = false)%Z as HS by lia. rewrite HS in E. cbn [negb] in E.
    rewrite (total_bits _ n (List.length items) HB HA HL) in E.
    destruct (Z.eqb_spec (Z.of_N n * Z.of_nat (List.length items)) 0) as [E0|E0].
    + injection E as <-. exists (txt "10"). split; auto. left. assert (List.length items = 0%nat) as H0 by nia.
      split; [lia|]. split; auto. destruct items; auto; discriminate.
    + destruct (sequence (map (lexNumber (ty_enum (a_ty a)) (ty_bits (a_ty a))) items)) as [v|] eqn:EV; [|discriminate].
      injection E as <-. exists v. split; auto. right. split; auto. nia.
Qed.

Lemma number_values_inj a b v v' r r' : number_arg a -> number_arg b -> ty_enum (a_ty a) = ty_enum (a_ty b) -> same_shape (a_ty a) (a_ty b) ->
  (ty_arr (a_ty a) = 0%Z /\ v = txt "10" /\ items_of a = [] \/
   ty_arr (a_ty a) <> 0%Z /\ sequence (map (lexNumber (ty_enum (a_ty a)) (ty_bits (a_ty a))) (items_of a)) = Some v) ->
  (ty_arr (a_ty b) = 0%Z /\ v' = txt "10" /\ items_of b = [] \/
   ty_arr (a_ty b) <> 0%Z /\ sequence (map (lexNumber (ty_enum (a_ty b)) (ty_bits (a_ty b))) (items_of b)) = Some v') ->
  v ++ r = v' ++ r' -> same_value a b /\ r = r'.
Proof.
  intros (HP & _ & n & l & HV & HB & Hn & HF & HA) (_ & _ & n' & l' & HV' & HB' & _ & HF' & HA') HE (EA & EB & _) H H' E.
  assert (n' = n) by lia. subst n'. unfold same_value, items_of in *. rewrite HV, HV' in *. rewrite <- HE, <- EB in *.
  rewrite HB in *. cbv zeta. replace (Z.to_nat (Z.of_N n)) with (N.to_nat n) by lia.
  destruct H as [(H0 & -> & H2) | [H0 H2]]; destruct H' as [(H0' & -> & H2') | [H0' H2']]; try lia.
  - subst l l'. split; [constructor|]. apply app_inv_head in E. auto.
  - apply (sequence_inj (lexNumber (ty_enum (a_ty a)) (Z.of_N n)) (fun d => d < 2 ^ n)
      (fun d d' => meaning (ty_enum (a_ty a)) (msb_bits (N.to_nat n) d) = meaning (ty_enum (a_ty a)) (msb_bits (N.to_nat n) d')))
      with (s := v) (s' := v'); auto.
    + intros d d' x y q q' Hd Hd' EX EY EE. apply (lexNumber_inj _ n d d' x y q q'); auto.
    + lia.
Qed.

Lemma number_args_inj a b x y r r' : number_arg a -> number_arg b -> argText a = Some x -> argText b = Some y -> x ++ r = y ++ r' ->
  same_arg a b /\ r = r'.
Proof.
  intros HA HB EX EY E. destruct (number_arg_text a x HA EX) as (v & -> & HV). destruct (number_arg_text b y HB EY) as (v' & -> & HV').
  rewrite <- !app_assoc in E. apply C27_type_names_distinct in E; auto using number_arg_sizes. destruct E as [[HE HS] E].
  destruct (number_values_inj a b v v' r r' HA HB HE HS HV HV' E) as [H1 H2]. split; auto. split; auto. split; auto.
Qed.

(* C54: two instances of a template with number arguments (or arrays of them) have the same name only if all arguments have
   the same types and values, whatever follows the name *)
Theorem C54_instances_told_apart : forall args args' x y rest rest',
  List.length args = List.length args' -> Forall number_arg args -> Forall number_arg args' ->
  formatArgs false args = Some x -> formatArgs false args' = Some y -> x ++ rest = y ++ rest' ->
  Forall2 same_arg args args' /\ rest = rest'.
Proof.
  intros args args' x y r r' HL HF HF' EX EY E. unfold formatArgs in *.
  destruct (sequence (map argText args)) as [s|] eqn:E1; [|discriminate]. injection EX as <-.
  destruct (sequence (map argText args')) as [s'|] eqn:E2; [|discriminate]. injection EY as <-.
  cbn [app] in E. rewrite HL, <- !app_assoc in E. apply app_inv_head in E.
  exact (sequence_inj argText number_arg same_arg number_args_inj args args' s s' r r' HF HF' HL E1 E2 E).
Qed.
Print Assumptions C54_instances_told_apart.

Example C54_ex :
  let t := prim EUnsigned 8 2 in
  let a := mkArg (prim EInt 32 (-1)) (AData [4294967293]) in let b := mkArg t (AData [1; 200]) in
  number_arg a /\ number_arg b /\
  formatArgs false [a; b] = Some (txt "12102321in1312181u113200").
Proof.
  cbv zeta. split; [|split; [|vm_compute; reflexivity]].
  - split; [left; left; reflexivity|]. split; [reflexivity|]. exists 32, [4294967293].
    split; [reflexivity|]. split; [reflexivity|]. split; [lia|]. split; [repeat constructor|]. left. split; reflexivity.
  - split; [left; right; left; reflexivity|]. split; [reflexivity|]. exists 8, [1; 200].
    split; [reflexivity|]. split; [reflexivity|]. split; [lia|]. split; [repeat constructor|]. right. cbn. lia.
Qed.

(* refuted for class constants: only 11 of the 32 bits of a quark make it into the name *)
Theorem C54_class_constants_refuted :
  exists l l' : list bool, List.length l = 32%nat /\ List.length l' = 32%nat /\ l <> l' /\
    let q := mkTy EClass 32 (-1) AltNot CQuark 3 100 false 0 in
    exists x, formatArgs false [mkArg q (AClass l)] = Some x /\ formatArgs false [mkArg q (AClass l')] = Some x.
Proof.
  exists (repeat false 32), (repeat false 31 ++ [true]). split; [reflexivity|]. split; [reflexivity|].
  split; [discriminate|]. eexists. split; vm_compute; reflexivity.
Qed.
Print Assumptions C54_class_constants_refuted.

(* refuted for arrays of strings: an empty string leaves no trace in the name: {"", "a"} and {"a", ""} *)
Theorem C54_string_arrays_refuted :
  exists s s', format_user [] = Some s /\ format_user (txt "a") = Some s' /\
    let t := prim EString 18 2 in
    exists x, formatArgs false [mkArg t (AStrings [s; s'])] = Some x /\ formatArgs false [mkArg t (AStrings [s'; s])] = Some x.
Proof. exists [0], [1; 97; 0]. split; [reflexivity|]. split; [reflexivity|]. eexists. split; vm_compute; reflexivity. Qed.
Print Assumptions C54_string_arrays_refuted.

(* ---- C28 ---- *)
Lemma param_inj templ p q x y r r' : known_param templ p -> known_param templ q ->
  paramText p = Some x -> paramText q = Some y -> x ++ r = y ++ r' -> same_param p q /\ r = r'.
Proof.
  intros HP HQ EX EY E.
  assert (forall name t args z, known_param templ (PClass name t args) -> paramText (PClass name t args) = Some z ->
            exists w, z = mangledClassType name t ++ w) as HC.
  { intros name t [l|] z _ EZ; cbn [paramText] in EZ.
    - destruct (formatArgs (isAltRefType t) l) as [s|]; [|discriminate]. injection EZ as <-. eauto.
    - injection EZ as <-. eauto. }
  destruct p as [t|name t args], q as [t'|name' t' args'].
  - cbn [paramText] in EX, EY. injection EX as <-. injection EY as <-. apply C27_type_names_distinct in E; auto.
  - exfalso. destruct (HC _ _ _ _ HQ EY) as (w & ->). cbn [paramText] in EX. injection EX as <-.
    cbn [known_param] in *. rewrite <- app_assoc in E. apply C27_class_is_not_plain in E; tauto.
  - exfalso. destruct (HC _ _ _ _ HP EX) as (w & ->). cbn [paramText] in EY. injection EY as <-.
    cbn [known_param] in *. symmetry in E. rewrite <- app_assoc in E. apply C27_class_is_not_plain in E; tauto.
  - destruct (HC _ _ _ _ HP EX) as (w & EW). destruct (HC _ _ _ _ HQ EY) as (w' & EW'). subst x y.
    destruct HP as (HS & HN & HA). destruct HQ as (HS' & HN' & HA').
    rewrite <- !app_assoc in E. apply C27_class_names_distinct in E; auto. destruct E as (<- & HSH & E).
    cbn [same_param]. destruct args as [l|], args' as [l'|]; destruct (templ name) as [k|]; try contradiction.
    + cbn [paramText] in EX, EY.
      destruct (formatArgs (isAltRefType t) l) as [s|] eqn:F1; [|discriminate]. injection EX as EX. apply app_inv_head in EX. subst w.
      destruct (formatArgs (isAltRefType t') l') as [s'|] eqn:F2; [|discriminate]. injection EY as EY. apply app_inv_head in EY. subst w'.
      unfold formatArgs in F1, F2.
      destruct (sequence (map argText l)) as [u|] eqn:U1; [|discriminate]. injection F1 as <-.
      destruct (sequence (map argText l')) as [u'|] eqn:U2; [|discriminate]. injection F2 as <-.
      destruct HA as (HL & Hk & HF). destruct HA' as (HL' & _ & HF').
      assert (forall k0 z z', k0 < two64 -> ToLeximitedNumber32u k0 ++ z <> 114 :: z') as HNR.
      { intros k0 z z' Hk0 EE. pose proof (read_unsigned_ok k0 z Hk0) as A. change (ToLeximitedNumberU k0) with (ToLeximitedNumber32u k0) in A.
        rewrite EE in A. cbn in A. discriminate. }
      rewrite HL, HL' in E. rewrite <- !app_assoc in E.
      assert (u32 (N.of_nat k) < two64) as HK by (unfold u32, two32, two64; lia).
      destruct (isAltRefType t), (isAltRefType t'); cbn [app] in E.
      * injection E as E. apply app_inv_head in E.
        destruct (sequence_inj argText number_arg same_arg number_args_inj l l' u u' r r') as [G1 G2]; auto; congruence.
      * exfalso. symmetry in E. exact (HNR _ _ _ HK E).
      * exfalso. exact (HNR _ _ _ HK E).
      * apply app_inv_head in E.
        destruct (sequence_inj argText number_arg same_arg number_args_inj l l' u u' r r') as [G1 G2]; auto; congruence.
    + cbn [paramText] in EX, EY. injection EX as EX. injection EY as EY. apply app_inv_head in EX. apply app_inv_head in EY. subst w w'.
      apply app_inv_head in E. auto.
Qed.

(* C28: the generated name of a function determines its name and its parameters: how many, and of which types, for plain
   types, classes and template instances with number arguments *)
Theorem C28_function_names_distinct : forall templ name name' ps ps' x,
  N.of_nat (List.length name) < 2 ^ 32 -> N.of_nat (List.length name') < 2 ^ 32 ->
  N.of_nat (List.length ps) < 2 ^ 32 -> N.of_nat (List.length ps') < 2 ^ 32 ->
  Forall (known_param templ) ps -> Forall (known_param templ) ps' ->
  getMangledNameWithTypes name ps = Some x -> getMangledNameWithTypes name' ps' = Some x ->
  name = name' /\ Forall2 same_param ps ps'.
Proof.
  intros templ name name' ps ps' x HN HN' HL HL' HF HF' EX EY. unfold getMangledNameWithTypes in *.
  destruct (sequence (map paramText ps)) as [s|] eqn:E1; [|discriminate]. injection EX as <-.
  destruct (sequence (map paramText ps')) as [s'|] eqn:E2; [|discriminate]. injection EY as E.
  symmetry in E. apply ToLeximited_prefix_free in E; auto. destruct E as [-> E]. split; auto.
  unfold u32 in E. change (2 ^ 32) with two32 in *. rewrite !N.mod_small in E by auto.
  apply C02_unsigned64_injective in E; try (unfold two32 in *; lia). destruct E as [EL ->].
  refine (proj1 (sequence_inj paramText (known_param templ) same_param (param_inj templ) ps ps' s' s' [] [] HF HF' _ E1 E2 eq_refl)). lia.
Qed.
Print Assumptions C28_function_names_distinct.

Example C28_ex :
  let templ (s : text) := if text_eqb s (txt "Foo") then Some 1%nat else None in
  let foo k := PClass (txt "Foo") (mkTy EClass 7 (-1) AltNot CQuark 3 100 false 0) (Some [mkArg (prim EInt 32 (-1)) (AData [k])]) in
  known_param templ (foo 3) /\
  getMangledNameWithTypes (txt "f") [foo 3; PPlain (prim EInt 32 (-1))] = Some (txt "Uf_1f1210173Foo11102321i13102321i") /\
  getMangledNameWithTypes (txt "f") [foo 4; PPlain (prim EInt 32 (-1))] = Some (txt "Uf_1f1210173Foo11102321i14102321i").
Proof.
  cbv zeta. split; [|split; vm_compute; reflexivity].
  split; [unfold complete_sizes; cbn; lia|]. split; [split; [exists 70, (txt "oo"); split; [reflexivity|lia]|cbn; lia]|].
  cbn. split; [reflexivity|]. split; [lia|]. constructor; [|constructor].
  split; [left; left; reflexivity|]. split; [reflexivity|]. exists 32, [3].
  split; [reflexivity|]. split; [reflexivity|]. split; [lia|]. split; [repeat constructor|]. left. split; reflexivity.
Qed.
