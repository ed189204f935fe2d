(* DupFuncTheorems.v: final theorems about functions that clash (C73). *)
From Coq Require Import String List NArith ZArith Lia Bool.
From Coq Require Import ZifyBool ZifyNat ZifyN.
From Verif Require Import Base LeximitedModel LeximitedSpec LeximitedProofs LeximitedTheorems BitVec UTypeModel PrimModel PrimSpec PrimProofs TypeTableModel FamilyModel FamilyProofs FamilyTheorems
  MangleModel MangleSpec MangleProofs MangleTheorems DupFuncModel DupFuncSpec DupFuncProofs.
Import ListNotations.
Open Scope N_scope.
Local Opaque the_fuel.

(* ---- C73: what is accepted, exactly ----
   types: the type that a type's index stands for; the comparison tells the return types of the functions apart by it *)
Definition tells (compare : N -> N -> cmp) (types : N -> N) (known : func -> Prop) : Prop :=
  forall f g, known f -> known g -> (compare (fn_ret f) (fn_ret g) <> NotSame <-> types (fn_ret f) = types (fn_ret g)).

Section Exact.
Variables (compare : N -> N -> cmp) (types : N -> N) (root : N -> N) (bases : N -> option (list N)) (funcs : N -> list func) (templ : text -> option nat).
Definition in_funcs (c : N) (f : func) : Prop := exists x, in_family root bases c x /\ In f (funcs x).

(* of several functions of a class with one signature, the first is virtual *)
Definition first_is_virtual (l : list func) : Prop :=
  forall l1 f l2 g l3, l = l1 ++ f :: l2 ++ g :: l3 -> same_signature f g -> (forall h, In h l1 -> ~ same_signature h f) -> fn_virtual f = true.
(* functions with one signature return one type *)
Definition one_return_type (c : N) : Prop :=
  forall f g, in_funcs c f -> in_funcs c g -> same_signature f g -> types (fn_ret f) = types (fn_ret g).
End Exact.

Lemma ret_bad_iff compare v f : ret_bad compare v f = false <-> forall r b, v = Some (r, b) -> compare r (fn_ret f) <> NotSame.
Proof.
  unfold ret_bad. destruct v as [[r b]|]; [|split; [discriminate|auto]]. split.
  - intros H r' b' E. injection E as <- <-. destruct (compare r (fn_ret f)); congruence.
  - intros H. specialize (H r b eq_refl). destruct (compare r (fn_ret f)); congruence.
Qed.
Lemma dup_bad_iff v : dup_bad v = false <-> forall r b, v = Some (r, b) -> b = true.
Proof. unfold dup_bad. destruct v as [[r b]|]; [|split; [discriminate|auto]]. split; [intros H r' b' E; injection E as <- <-; destruct b; auto|intros H; rewrite (H r b eq_refl); auto]. Qed.

(* the first function with a key *)
Lemma firstf_some l k r b : firstf l k = Some (r, b) -> exists l1 h l2, l = l1 ++ h :: l2 /\ sig_key h = k /\ fn_ret h = r /\ fn_virtual h = b /\ forall h', In h' l1 -> sig_key h' <> k.
Proof.
  unfold firstf, mine. induction l as [|f l IH]; cbn [List.find]; [discriminate|].
  destruct (text_eqb k (sig_key f)) eqn:E.
  - apply text_eqb_eq in E. cbn. intros EQ. injection EQ as <- <-. exists [], f, l. cbn. repeat split; auto.
  - intros EQ. destruct (IH EQ) as (l1 & h & l2 & -> & H1 & H2 & H3 & H4). exists (f :: l1), h, l2. repeat split; auto. intros h' [<-|HI]; auto.
    intros EK. rewrite <- EK in E. rewrite (proj2 (text_eqb_eq (sig_key f) (sig_key f)) eq_refl) in E. discriminate.
Qed.
Lemma firstf_at l1 h l2 k : sig_key h = k -> (forall h', In h' l1 -> sig_key h' <> k) -> firstf (l1 ++ h :: l2) k = Some (fn_ret h, fn_virtual h).
Proof.
  intros <- HN. unfold firstf. induction l1 as [|f l1 IH]; cbn [app List.find].
  - rewrite (proj2 (text_eqb_eq _ _) eq_refl). reflexivity.
  - destruct (text_eqb (sig_key h) (sig_key f)) eqn:E; [apply text_eqb_eq in E; exfalso; apply (HN f); [left; auto|auto]|]. apply IH. intros h' HI. apply HN. right. auto.
Qed.
Lemma split_later {A} (l1 : list A) f l2 g l3 : l1 ++ f :: l2 ++ g :: l3 = (l1 ++ f :: l2) ++ g :: l3.
Proof. rewrite <- app_assoc. reflexivity. Qed.
Lemma view_nil k : view [] k = None. Proof. reflexivity. Qed.

Section Lists.
Variables (compare : N -> N -> cmp) (types : N -> N) (known : func -> Prop) (templ : text -> option nat).
Hypothesis HK : forall f, known f -> known_func templ f.
Hypothesis HT : tells compare types known.
Notation rets := (checkTableOfFunctionsSignatureReturnTypes compare).
Notation names := (checkTableOfFunctions compare).

Lemma key_iff f g : known f -> known g -> (sig_key f = sig_key g <-> same_signature f g).
Proof. intros H1 H2. split; [apply (signature_of_key templ)|apply (key_of_signature templ)]; auto. Qed.

Lemma rets_zero l : (forall f, In f l -> known f) ->
  (snd (rets [] l) = 0%nat <-> forall f g, In f l -> In g l -> same_signature f g -> types (fn_ret f) = types (fn_ret g)).
Proof.
  intros HL. rewrite (proj2 (rets_spec compare l [])). setoid_rewrite ret_bad_iff. split.
  - intros H. assert (forall l1 h l2 f, l = l1 ++ h :: l2 -> (forall h', In h' l1 -> sig_key h' <> sig_key h) -> In f l -> sig_key f = sig_key h -> types (fn_ret h) = types (fn_ret f)) as HF.
    { intros l1 h l2 f EL HN HI EK. rewrite EL in HI. apply in_app_iff in HI. destruct HI as [HI|[<-|HI]]; [apply HN in HI; contradiction|auto|].
      apply in_split in HI. destruct HI as (m1 & m2 & ->). apply HT; [apply HL; rewrite EL; apply in_app_iff; right; left; auto|apply HL; rewrite EL; apply in_app_iff; right; right; apply in_app_iff; right; left; auto|].
      rewrite split_later in EL. eapply (H _ f _ EL). rewrite view_nil. cbn [orf]. apply firstf_at; auto. rewrite EK. auto. }
    intros f g Hf Hg HS. apply key_iff in HS; auto.
    assert (exists l1 h l2, l = l1 ++ h :: l2 /\ sig_key h = sig_key f /\ forall h', In h' l1 -> sig_key h' <> sig_key f) as (l1 & h & l2 & EL & EK & HN).
    { destruct (firstf l (sig_key f)) as [[r b]|] eqn:EF. - destruct (firstf_some _ _ _ _ EF) as (l1 & h & l2 & -> & H1 & _ & _ & H4). eauto 8.
      - exfalso. unfold firstf in EF. destruct (List.find _ l) eqn:E; [discriminate|]. apply find_none with (x := f) in E; auto. rewrite (proj2 (text_eqb_eq _ _) eq_refl) in E. discriminate. }
    rewrite <- EK in HN. transitivity (types (fn_ret h)); [symmetry|]; apply (HF l1 h l2); auto. congruence.
  - intros H l1 f l2 EL r b EV. rewrite view_nil in EV. cbn [orf] in EV. apply firstf_some in EV. destruct EV as (m1 & h & m2 & -> & EK & <- & _ & _).
    assert (In h l) as Ih by (rewrite EL; apply in_app_iff; left; apply in_app_iff; right; left; auto). assert (In f l) as If by (rewrite EL; apply in_app_iff; right; left; auto).
    apply HT; auto. apply H; auto. apply key_iff; auto.
Qed.

Lemma names_zero l : (forall f, In f l -> known f) ->
  (snd (names [] l) = 0%nat <-> snd (rets [] l) = 0%nat /\ first_is_virtual l).
Proof.
  intros HL. rewrite names_spec, (proj2 (rets_spec compare l [])). cbv zeta. split.
  - intros H. split; [intros l1 f l2 EL; apply (H l1 f l2 EL)|]. intros l1 f l2 g l3 EL HS HN. rewrite split_later in EL. destruct (H _ g _ EL) as [_ HD].
    rewrite dup_bad_iff in HD. rewrite view_nil in HD. cbn [orf] in HD. apply (HD (fn_ret f)). apply firstf_at.
    + apply key_iff; auto; apply HL; rewrite EL; rewrite !in_app_iff; cbn; auto.
    + intros h HI EK. apply (HN h HI). apply key_iff; [apply HL; rewrite EL; rewrite !in_app_iff; auto|apply HL; rewrite EL; rewrite !in_app_iff; cbn; auto|].
      rewrite EK. symmetry. apply key_iff; auto; apply HL; rewrite EL; rewrite !in_app_iff; cbn; auto.
  - intros [HR HV] l1 f l2 EL. split; [apply (HR l1 f l2 EL)|]. apply dup_bad_iff. intros r b EV. rewrite view_nil in EV. cbn [orf] in EV. apply firstf_some in EV.
    destruct EV as (m1 & h & m2 & -> & EK & _ & <- & HN). rewrite <- split_later in EL. apply (HV m1 h m2 f l2 EL).
    + apply key_iff; auto; apply HL; rewrite EL; rewrite !in_app_iff; cbn; rewrite ?in_app_iff; cbn; auto.
    + intros h' HI HS. apply (HN h' HI). rewrite <- EK. apply key_iff; auto; apply HL; rewrite EL; rewrite !in_app_iff; cbn; auto.
Qed.
End Lists.

(* no error is reported for a class exactly when functions of the class and its ancestors with one signature return one
   type, and of several functions with one signature in one class the first, in the order of the map, is virtual *)
Theorem C73_exact_partial : forall compare types root bases funcs templ c, (forall x, root x < 65536) ->
  (forall f, in_funcs root bases funcs c f -> known_func templ f) -> tells compare types (in_funcs root bases funcs c) ->
  (checkDuplicateFunctionsInClassAndAncestors compare root bases funcs c = 0%nat <->
   one_return_type types root bases funcs c /\ forall x, in_family root bases c x -> first_is_virtual (funcs x)).
Proof.
  intros compare types root bases funcs templ c HB HK HT. unfold checkDuplicateFunctionsInClassAndAncestors. rewrite family_spec.
  destruct (C32_walk root bases HB false c) as (_ & HW & _).
  assert (forall x, In x (walk_from root bases false c) -> definedb bases x = true -> in_family root bases c x) as H1.
  { intros x HI HD. split; [apply HW; auto|]. unfold definedb in HD. destruct (bases x) as [bs|]; eauto; discriminate. }
  assert (forall x, in_family root bases c x -> In x (walk_from root bases false c) /\ definedb bases x = true) as H2.
  { intros x [HR [bs EB]]. split; [apply HW; auto|]. unfold definedb. rewrite EB. auto. }
  assert (forall f, In f (flat_map funcs (filter (definedb bases) (walk_from root bases false c))) <-> in_funcs root bases funcs c f) as HF.
  { intros f. rewrite in_flat_map. split.
    - intros (x & HX & Hf). apply filter_In in HX. exists x. split; auto. apply H1; tauto.
    - intros (x & HX & Hf). exists x. split; auto. apply filter_In. auto. }
  rewrite (rets_zero compare types (in_funcs root bases funcs c) templ HK HT) by (intros f; apply HF). unfold one_return_type.
  assert (forall x, in_family root bases c x -> forall f, In f (funcs x) -> in_funcs root bases funcs c f) as HX by (intros x HX f Hf; exists x; auto).
  split.
  - intros [HA HR]. split; [intros f g Hf Hg; apply HR; apply HF; auto|]. intros x Hx. destruct (H2 x Hx) as [HI HD].
    specialize (HA x HI HD). unfold checkMatchingFunctions in HA. apply (names_zero compare (in_funcs root bases funcs c) templ HK) in HA; [tauto|apply HX; auto].
  - intros [HR HV]. split; [|intros f g Hf Hg; apply HR; apply HF; auto]. intros x HI HD. unfold checkMatchingFunctions.
    apply (names_zero compare (in_funcs root bases funcs c) templ HK); [apply HX; auto|]. split; [|apply HV; auto].
    apply (rets_zero compare types (in_funcs root bases funcs c) templ HK HT); [apply HX; auto|]. intros f g Hf Hg. apply HR; apply (HX x); auto.
Qed.
Print Assumptions C73_exact_partial.

(* so two plain functions of one class with one signature are always reported *)
Theorem C73_plain_duplicates : forall compare types root bases funcs templ c x f g, (forall x, root x < 65536) ->
  (forall f, in_funcs root bases funcs c f -> known_func templ f) -> tells compare types (in_funcs root bases funcs c) ->
  in_family root bases c x -> before (funcs x) f g -> same_signature f g -> (forall h, In h (funcs x) -> fn_virtual h = false) ->
  checkDuplicateFunctionsInClassAndAncestors compare root bases funcs c <> 0%nat.
Proof.
  intros compare types root bases funcs templ c x f g HB HK HT HX (l1 & l2 & l3 & EL) HS HV HZ.
  apply (C73_exact_partial compare types root bases funcs templ c HB HK HT) in HZ. destruct HZ as [_ HF].
  assert (forall h, In h (funcs x) -> known_func templ h) as HKx by (intros h HI; apply HK; exists x; auto).
  assert (forall a b, In a (funcs x) -> In b (funcs x) -> (sig_key a = sig_key b <-> same_signature a b)) as KI.
  { intros a b Ha Hb. split; [apply (signature_of_key templ)|apply (key_of_signature templ)]; auto. }
  assert (In f (funcs x) /\ In g (funcs x)) as [If Ig] by (rewrite EL; split; rewrite !in_app_iff; cbn; rewrite ?in_app_iff; cbn; auto).
  apply KI in HS; auto. pose proof EL as EF. rewrite split_later in EF.
  destruct (firstf (l1 ++ f :: l2) (sig_key f)) as [[r b]|] eqn:E.
  - apply firstf_some in E. destruct E as (m1 & h & m2 & EM & EK & _ & _ & HN). rewrite EM, <- split_later in EF.
    assert (forall h', In h' (m1 ++ [h]) -> In h' (funcs x)) as HI.
    { intros h' H'. rewrite EF. apply in_app_iff in H'. rewrite in_app_iff. cbn in *. tauto. }
    assert (In h (funcs x)) as Ih by (apply HI, in_app_iff; right; left; auto).
    assert (fn_virtual h = true) as HH.
    { apply (HF x HX m1 h m2 g l3 EF). - apply KI; auto. congruence. - intros h' H' HS'. apply (HN h' H'). apply KI in HS'; auto; [congruence|apply HI, in_app_iff; auto]. }
    rewrite HV in HH by auto. discriminate.
  - unfold firstf in E. destruct (List.find _ (l1 ++ f :: l2)) eqn:E'; [discriminate|]. apply find_none with (x := f) in E'; [|rewrite in_app_iff; cbn; auto]. rewrite (proj2 (text_eqb_eq _ _) eq_refl) in E'. discriminate.
Qed.
Print Assumptions C73_plain_duplicates.

(* an override in a subclass, or an overload, is never reported *)
Theorem C73_quiet : forall compare types root bases funcs templ c, (forall x, root x < 65536) ->
  (forall f, in_funcs root bases funcs c f -> known_func templ f) -> tells compare types (in_funcs root bases funcs c) ->
  one_return_type types root bases funcs c -> (forall x f g, in_family root bases c x -> before (funcs x) f g -> ~ same_signature f g) ->
  checkDuplicateFunctionsInClassAndAncestors compare root bases funcs c = 0%nat.
Proof.
  intros compare types root bases funcs templ c HB HK HT HR HD. apply (C73_exact_partial compare types root bases funcs templ c HB HK HT). split; auto.
  intros x HX l1 f l2 g l3 EL HS _. exfalso. apply (HD x f g HX); auto. exists l1, l2, l3. auto.
Qed.
Print Assumptions C73_quiet.

(* ---- C73, where it fails: a class with two functions of one signature is accepted if the first is virtual, though the
   second is not; in the other order it is refused ---- *)
Definition same_index (a b : N) : cmp := if a =? b then Same else NotSame.
Definition ff (v : bool) : func := mkFunc (txt "f") [PPlain (prim EInt 32 (-1))] 5 v.
Definition one_class (c : N) : option (list N) := if c =? 9 then Some [] else None.
Theorem C73_virtual_refuted :
  same_signature (ff true) (ff false) /\
  checkDuplicateFunctionsInClassAndAncestors same_index (fun x => x mod 65536) one_class (fun _ => [ff true; ff false]) 9 = 0%nat /\
  checkDuplicateFunctionsInClassAndAncestors same_index (fun x => x mod 65536) one_class (fun _ => [ff true; ff true]) 9 = 0%nat /\
  checkDuplicateFunctionsInClassAndAncestors same_index (fun x => x mod 65536) one_class (fun _ => [ff false; ff true]) 9 = 1%nat.
Proof.
  split; [|split; [|split]]; [|vm_compute; reflexivity ..].
  split; [reflexivity|]. constructor; [|constructor]. cbn. unfold same_plain, same_shape. tauto.
Qed.
Print Assumptions C73_virtual_refuted.

(* class 9 with base 10: an override with the same return type; with another; a plain duplicate *)
Definition two_classes (c : N) : option (list N) := if c =? 9 then Some [10] else if c =? 10 then Some [] else None.
Definition fret (r : N) : func := mkFunc (txt "f") [PPlain (prim EInt 32 (-1))] r true.
Definition other : func := mkFunc (txt "f") [PPlain (prim EInt 16 (-1))] 6 false.
Definition fam (r : N) (c : N) : list func := if c =? 9 then [fret 5; other] else [fret r].
Example C73_ex :
  (forall r f, In f (fam r 9) -> known_func (fun _ => None) f) /\ (forall r f, In f (fam r 10) -> known_func (fun _ => None) f) /\
  tells same_index (fun t => t) (fun _ => True) /\
  checkDuplicateFunctionsInClassAndAncestors same_index (fun x => x mod 65536) two_classes (fam 5) 9 = 0%nat /\
  checkDuplicateFunctionsInClassAndAncestors same_index (fun x => x mod 65536) two_classes (fam 6) 9 = 1%nat.
Proof.
  assert (forall b r v, 1 <= b < 100 -> known_func (fun _ => None) (mkFunc (txt "f") [PPlain (prim EInt (Z.of_N b) (-1))] r v)) as HK.
  { intros b r v Hb. split; [vm_compute; reflexivity|]. split; [vm_compute; reflexivity|]. split.
    - constructor; [|constructor]. split; [|cbn; discriminate]. cbn. unfold complete_sizes. cbn. repeat split; try discriminate; lia.
    - cbn. discriminate. }
  split; [|split; [|split; [|split; vm_compute; reflexivity]]].
  - intros r f HI. cbn in HI. destruct HI as [<-|[<-|[]]]; [apply (HK 32)|apply (HK 16)]; lia.
  - intros r f HI. cbn in HI. destruct HI as [<-|[]]. apply (HK 32); lia.
  - intros f g _ _. unfold same_index. destruct (N.eqb_spec (fn_ret f) (fn_ret g)); split; intros; auto; congruence.
Qed.

(* ---- C73: while parsing ---- *)
(* the declarations of a class, one after another *)
Definition declare_all (ds : list (list pkey * func)) : fmap := fold_left (fun m d => fst (fst (overloadFunction m (fst d) (snd d)))) ds [].
Definition written (d : list pkey * func) : Prop := N.of_nat (List.length (fn_name (snd d))) < 2 ^ 32 /\ no_void (fst d).
Definition alike (d e : list pkey * func) : Prop := fn_name (snd d) = fn_name (snd e) /\ map item (fst d) = map item (fst e).
Definition key_of (d : list pkey * func) : text := getMangledNameWithUTIparameters (fn_name (snd d)) (fst d).

Lemma key_alike d e : written d -> written e -> (key_of d = key_of e <-> alike d e).
Proof. intros [H1 H2] [H3 H4]. apply key_inj; auto. Qed.
Lemma declare_all_find ds k : fmap_find (declare_all ds) k = option_map snd (List.find (fun d => text_eqb k (key_of d)) ds).
Proof.
  unfold declare_all. assert (forall m, fmap_find (fold_left (fun m d => fst (fst (overloadFunction m (fst d) (snd d)))) ds m) k =
    match fmap_find m k with Some f => Some f | None => option_map snd (List.find (fun d => text_eqb k (key_of d)) ds) end) as H; [|apply H].
  induction ds as [|d ds IH]; intros m; cbn [fold_left List.find].
  - destruct (fmap_find m k); auto.
  - rewrite IH. unfold overloadFunction. fold (key_of d). destruct (fmap_find m (key_of d)) as [g|] eqn:E; cbn [fst snd].
    + destruct (fmap_find m k) eqn:EK; auto. destruct (text_eqb k (key_of d)) eqn:ET; auto. apply text_eqb_eq in ET. congruence.
    + rewrite find_insert by auto. destruct (text_eqb k (key_of d)) eqn:ET; auto. apply text_eqb_eq in ET. subst k. rewrite E. auto.
Qed.

(* after any declarations, one more is refused exactly when one of them has the same name and its parameters are written
   alike; the one reported is the first such *)
Theorem C73_parsing : forall ds d, (forall e, In e ds -> written e) -> written d ->
  let r := overloadFunction (declare_all ds) (fst d) (snd d) in
  (snd (fst r) = false <-> exists e, In e ds /\ alike e d) /\
  (forall g, snd r = Some g -> exists l1 e l2, ds = l1 ++ e :: l2 /\ snd e = g /\ alike e d /\ forall e', In e' l1 -> ~ alike e' d).
Proof.
  intros ds d HW Hd r. subst r. unfold overloadFunction. fold (key_of d). rewrite declare_all_find.
  assert (forall l, (forall e, In e l -> written e) -> match List.find (fun e => text_eqb (key_of d) (key_of e)) l with
    | Some e => exists l1 l2, l = l1 ++ e :: l2 /\ alike e d /\ forall e', In e' l1 -> ~ alike e' d
    | None => forall e, In e l -> ~ alike e d end) as HF.
  { induction l as [|e l IH]; intros HL; cbn [List.find]; [intros e []|].
    assert (text_eqb (key_of d) (key_of e) = true <-> alike e d) as HE by (rewrite text_eqb_eq, <- key_alike by (auto; apply HL; left; auto); split; auto).
    destruct (text_eqb (key_of d) (key_of e)) eqn:ET.
    - exists [], l. split; auto. split; [apply HE; auto|intros e' []].
    - specialize (IH (fun x Hx => HL x (or_intror Hx))). assert (~ alike e d) as HN by (rewrite <- HE; discriminate).
      destruct (List.find _ l) as [e0|]. + destruct IH as (l1 & l2 & -> & H1 & H2). exists (e :: l1), l2. split; auto. split; auto. intros e' [<-|HI]; auto.
      + intros e' [<-|HI]; auto. }
  specialize (HF ds HW). destruct (List.find _ ds) as [e|]; cbn [option_map fst snd].
  - destruct HF as (l1 & l2 & -> & H1 & H2). split.
    + split; auto. intros _. exists e. split; auto. rewrite in_app_iff. cbn. auto.
    + intros g EG. injection EG as <-. exists l1, e, l2. auto.
  - split; [|discriminate]. split; [discriminate|]. intros (e & HI & HA). exfalso. apply (HF e); auto.
Qed.
Print Assumptions C73_parsing.

(* f(Int a) twice is refused; f(Int a), f(Int & a) and f(Later a), a type not yet known, are three functions *)
Example C73_parsing_ex :
  let d ps := (ps, fret 5) in
  (forall ps, ps <> [] -> Forall (fun p => fst (fst (item p)) <> Void_uti) ps -> written (d ps)) /\
  snd (fst (overloadFunction (declare_all [d [KType 4]; d [KGiven 4 true]]) [KGiven 4 false] (fret 5))) = false /\
  snd (fst (overloadFunction (declare_all [d [KType 4]; d [KGiven 4 true]]) [KHzy 4 77] (fret 5))) = true /\
  map snd (declare_all [d [KType 57]; d [KType 104]]) = [fret 5; fret 5].
Proof.
  cbv zeta. split; [|split; [|split]]; [|vm_compute; reflexivity ..]. intros ps HP HF. split; [vm_compute; reflexivity|]. cbn [fst].
  split; intros ->; inversion HF; subst; cbn in *; congruence.
Qed.
