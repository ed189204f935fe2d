(* ClassParseComplete.v: every file of the grammar is read as what it defines. *)
From Coq Require Import List PeanoNat NArith Lia Bool.
From Verif Require Import Base ExprModel ExprSpec ExprProofs ExprValue ExprComplete ExprTheorems StmtModel StmtSpec StmtProofs StmtComplete StmtSound StmtTheorems ClassParseModel ClassParseSpec.
Import ListNotations.
Open Scope nat_scope.

Lemma look_s t ts : noerr t = true -> look (start (t :: ts)) = start (t :: ts).
Proof. intro H. apply look_id. cbn. intros ->. discriminate. Qed.
Lemma look_h ts : noerr (hd_tok ts) = true -> look (start ts) = start ts.
Proof. intro H. apply look_id. cbn. intro Z. rewrite Z in H. discriminate. Qed.
Lemma toks_s ts : toks (start ts) = ts. Proof. reflexivity. Qed.
Lemma drop_s t ts : drop (start (t :: ts)) = start ts. Proof. reflexivity. Qed.
#[export] Hint Rewrite toks_s drop_s : cs.
#[export] Hint Rewrite look_s using reflexivity : cs.
Ltac cq := cbn [hd_tok app]; repeat (progress autorewrite with cs; cbn [hd_tok app]).
Lemma expect_s {A} q t ts (y n : st -> res A) : same t t = true -> expect q t (start (t :: ts)) y n = y (start ts).
Proof. intro H. exact (expect_yes false false q t ts false DNone y n H). Qed.
Lemma expect_n {A} t ts (y n : st -> res A) : noerr (hd_tok ts) = true -> same (hd_tok ts) t = false -> expect true t (start ts) y n = n (start ts).
Proof. intros H S. apply (expect_no false false t ts false DNone y n); [|exact S]. intro Z. rewrite Z in H. discriminate. Qed.
Lemma initial_s {A} ts n rest (k : node -> st -> res A) : Init YC ts n -> decl_end (hd_tok rest) -> initial (start (ts ++ rest)) k = k n (start rest).
Proof. intros H F. exact (initial_ok false false ts n rest false DNone k H F). Qed.
Lemma expr_s {A} e n rest (k : node -> st -> res A) : YC false e n -> ender (as_tok (hd_tok rest)) -> expr (Level 0) (start (map E e ++ rest)) k = k n (start rest).
Proof.
  intros [H NA] F. change (start (map E e ++ rest)) with (Q false false (map E e ++ rest) false DNone).
  rewrite (expr_level false false e n) by assumption. rewrite NA. reflexivity.
Qed.
Lemma YC_hd b e n rest : YC b e n -> hd_tok (map E e ++ rest) = E (first e) /\ first e <> TErr.
Proof. intros [H _]. split; [exact (hd_G rest H) | exact (G_noerr _ _ _ _ H)]. Qed.
Lemma YC_nn b e n : YC b e n -> null n = false. Proof. intros [H _]. exact (G_nn _ _ _ _ H). Qed.
Lemma Init_null ts n : Init YC ts n -> null n = match ts with [] => true | _ => false end.
Proof. intros [|e m H]; [reflexivity | exact (YC_nn _ _ _ H)]. Qed.

Section Complete.
Variable kind : N -> tykind.
Variable isref : N -> bool.

(* = and a value, in any place *)
Lemma look_value b e n rest : YC b e n -> look (start (map E e ++ rest)) = start (map E e ++ rest).
Proof. intro H. destruct (YC_hd _ _ _ rest H) as [H1 H2]. apply look_h. rewrite H1. now destruct (first e). Qed.
Lemma tok_value b e n rest : YC b e n -> tok_of (start (map E e ++ rest)) = E (first e).
Proof. intro H. unfold tok_of. rewrite (look_value _ _ _ _ H). cq. now apply (YC_hd b e n). Qed.
Lemma constantDef_ok {A} req e n rest (k : option node -> st -> res A) : YC false e n -> ender (as_tok (hd_tok rest)) ->
  constantDef req false (start (E (TAssign 0) :: map E e ++ rest)) k = k (Some n) (start rest).
Proof.
  intros H F. unfold constantDef. cbv zeta. cq. rewrite (tok_value _ _ _ _ H), (look_value _ _ _ _ H).
  rewrite (expr_s e n) by assumption. now rewrite (YC_nn _ _ _ H).
Qed.
Lemma constantDef_stmt {A} e n rest (k : option node -> st -> res A) : YC false e n ->
  constantDef true true (start (E (TAssign 0) :: map E e ++ Semi :: rest)) k = k (Some n) (start (Semi :: rest)).
Proof.
  intros H. unfold constantDef. cbv zeta. cq. rewrite (tok_value _ _ _ _ H), (look_value _ _ _ _ H).
  rewrite (expr_s e n); [|exact H|exact I]. rewrite (YC_nn _ _ _ H). unfold constEnd. cbv zeta. now cq.
Qed.
Lemma parameterDef_ok {A} e n rest (k : option node -> st -> res A) : YC false e n ->
  parameterDef (start (E (TAssign 0) :: map E e ++ Semi :: rest)) k = k (Some n) (start (Semi :: rest)).
Proof.
  intros H. unfold parameterDef. cbv zeta. cq. rewrite (tok_value _ _ _ _ H), (look_value _ _ _ _ H).
  rewrite (expr_s e n); [|exact H|exact I]. unfold paramEnd. rewrite (YC_nn _ _ _ H). cbv zeta. now cq.
Qed.

(* ---- class parameters ---- *)
Lemma has_default_snoc acc t i n : has_default (acc ++ [(t, i, n)]) = negb (null n).
Proof. unfold has_default. now rewrite last_last. Qed.
(* one parameter, up to what follows it *)
Lemma classParam_ok t i ts n g acc rest :
  kind t <> KdVoid -> kind t <> KdAtom -> isref t = false -> Init YC ts n -> (has_default acc = true -> ts <> []) ->
  hd_tok rest = E TComma \/ hd_tok rest = E TClose ->
  classParams kind isref (S g) acc (start (E (TType t) :: E (TIdent i) :: ts ++ rest)) =
    classParams kind isref g (acc ++ [(t, i, n)]) (snd (comma (start rest))).
Proof.
  intros K1 K2 R HI HD F. cbn [classParams]. cbv zeta. cq.
  assert (W : match tok_of (start (ts ++ rest)) with E TOpen | E TOpenSq | E TSquare => False | _ => True end /\
     constantDef (has_default acc) false (start (ts ++ rest)) (fun r s3 => match r with None => Done acc (fail s3) | Some n => classParams kind isref g (acc ++ [(t, i, n)]) (snd (comma s3)) end)
       = classParams kind isref g (acc ++ [(t, i, n)]) (snd (comma (start rest)))).
  { destruct HI as [|e n H].
    - cbn [app]. unfold tok_of, constantDef, constEnd. cbv zeta. rewrite look_h by (destruct F as [-> | ->]; reflexivity). cq.
      destruct (has_default acc); [now elim HD|]. destruct F as [-> | ->]; split; auto.
    - cbn [app]. split; [unfold tok_of; cq; exact I|]. rewrite (constantDef_ok _ e n); [reflexivity | exact H | destruct F as [-> | ->]; exact I]. }
  destruct W as [W1 W2]. rewrite W2. rewrite R.
  destruct (kind t); try (now elim K1); try (now elim K2); destruct (tok_of (start (ts ++ rest))) as [[]| | | | | | | | | | | | | | | | |]; try reflexivity; destruct W1.
Qed.
Lemma classParams_ok d ts ps : CParams YC kind isref false d ts ps -> forall g acc rest, length ts < g -> has_default acc = d -> 
  classParams kind isref g acc (start (ts ++ E TClose :: rest)) = Done (acc ++ ps) (start rest).
Proof.
  induction 1 as [d t i ts n tr K1 K2 R HI HD HT|d t i ts n sep more ps K1 K2 R HI HD HS HM IH]; intros g acc rest L D; (destruct g as [|g]; [lia|]); assert (HD' : has_default acc = true -> ts <> []) by (rewrite D; exact HD).
  - destruct HT as [|Z]; [|discriminate]. rewrite app_nil_r in *. cbn [app]. rewrite classParam_ok with (n := n); auto.
    unfold comma. cbv zeta. cq. cbn [snd]. destruct g as [|g]; [cbn in L; lia|]. cbn [classParams]. cbv zeta. cq.
    destruct (acc ++ [(t, i, n)]) eqn:Z; [now destruct acc|]. reflexivity.
  - destruct HS as [|Z]; [|discriminate]. cbn [app]. rewrite <- app_assoc. cbn [app]. rewrite classParam_ok with (n := n); auto.
    unfold comma. cbv zeta. cq. cbn [snd]. rewrite IH; [now rewrite <- app_assoc | |].
    + cbn in L. rewrite app_length in L. cbn in L. lia.
    + apply has_default_snoc.
Qed.

(* ---- base classes ---- *)
Lemma baseClass_ok name b o rest : Base kind false name b o -> baseClass kind name (start (b ++ rest)) = Done o (start rest) /\ exists t, o = Some t.
Proof.
  intros [t id HN HD|Z]; [|discriminate]. split; [|now exists t]. unfold baseClass, ident_of. cbv zeta. cq.
  destruct HN as [[K ->] | K]; rewrite K; now destruct (N.eqb_spec id name).
Qed.
Lemma baseClasses_ok name ts bs : Bases kind false name ts bs -> forall g acc rest, length ts < g -> hd_tok rest = OpenC ->
  baseClasses kind g name acc (start (ts ++ rest)) = Done (acc ++ bs) (start rest).
Proof.
  induction 1 as [|b o more bs HB HM IH]; intros g acc rest L F; (destruct g as [|g]; [lia|]); cbn [baseClasses]; cbv zeta.
  - cbn [app]. rewrite look_h by now rewrite F. cq. now rewrite F, app_nil_r.
  - cq. rewrite <- app_assoc. destruct (baseClass_ok _ _ _ (more ++ rest) HB) as [E1 (t & ->)]. rewrite E1. cbn [sbind].
    rewrite IH; [now rewrite <- app_assoc | | exact F]. cbn in L. rewrite app_length in L. lia.
Qed.

(* ---- functions ---- *)
Lemma param_ok c t i g acc rest : hd_tok rest = E TComma \/ hd_tok rest = E TClose ->
  funcParams (S g) acc false (start (param c t i ++ rest)) = funcParams g (acc ++ [(c, t, i)]) false (snd (comma (start rest))).
Proof.
  intro F. cbn [funcParams]. unfold paramDecl, nextParam. cbv zeta.
  assert (T : tok_of (start rest) = hd_tok rest). { unfold tok_of. rewrite look_h by (destruct F as [-> | ->]; reflexivity). reflexivity. }
  destruct c; cbn [param app]; cq; rewrite T; destruct F as [-> | ->]; destruct (comma (start rest)) as [[] s']; reflexivity.
Qed.
Lemma params1_ok ts ps d : Params1 false ts ps d -> forall g acc rest, S (length ts) < g ->
  funcParams g acc false (start (ts ++ E TClose :: rest)) = Done (acc ++ ps, d) (start rest).
Proof.
  induction 1 as [|c t i tr HT|c t i sep more ps d HS HM IH]; intros g acc rest L; (destruct g as [|g]; [lia|]).
  - destruct g as [|g]; [cbn in L; lia|]. cbn [funcParams]. unfold nextParam. cbv zeta. cq. unfold comma. cbv zeta. cq. cbn [andb]. cbn [funcParams]. cbv zeta. cq. now rewrite app_nil_r.
  - destruct HT as [|Z]; [|discriminate]. rewrite app_nil_r in *. rewrite param_ok by now right. unfold comma. cbv zeta. cq. cbn [snd].
    destruct g as [|g]; [lia|]. cbn [funcParams]. cbv zeta. now cq.
  - destruct HS as [|Z]; [|discriminate]. rewrite <- !app_assoc. rewrite param_ok by now left. unfold comma. cbv zeta. cq. cbn [snd].
    rewrite IH; [now rewrite <- app_assoc|]. rewrite !app_length in L. cbn in L. lia.
Qed.
Lemma params_ok ts ps d rest : Params false ts ps d -> funcParams (S (length (ts ++ E TClose :: rest))) [] false (start (ts ++ E TClose :: rest)) = Done (ps, d) (start rest).
Proof.
  intros [|ts' ps' d' H]; [reflexivity|]. rewrite (params1_ok _ _ _ H); [reflexivity|]. rewrite app_length. cbn. lia.
Qed.
Lemma function_ok over virt constr ty id ps params dots b c rest :
  Params false ps params dots -> Code XC YC false virt b c -> (constr = true -> params <> []) -> (dots = true -> c = CNative) ->
  function over virt constr ty id (start (ps ++ E TClose :: b ++ rest)) =
    Done (Some {| f_override := over; f_virtual := virt; f_constr := constr; f_ty := ty; f_id := id; f_params := params; f_dots := dots; f_code := c |}) (start rest).
Proof.
  intros HP HC NE HD. unfold function, funcRest. rewrite toks_s, (params_ok _ _ _ _ HP). cbn [sbind fst snd].
  assert (N1 : constr && match params with [] => true | _ => false end = false). { destruct constr; [|reflexivity]. destruct params; [now elim NE | reflexivity]. }
  rewrite N1. clear N1. unfold funcBody. cbv zeta. destruct HC as [ts tr H| |Z|V].
  - cq. rewrite <- app_assoc. cbn [app]. rewrite (C72_reads_partial _ _ rest H). cbn [sbind]. cq. cbn [sbind].
    destruct dots; [now specialize (HD eq_refl)|]. cbn [andb]. now cq.
  - cq. cbn [sbind negb]. rewrite andb_false_r. now cq.
  - discriminate.
  - subst virt. cq. cbn [sbind negb]. destruct dots; [now specialize (HD eq_refl)|]. cbn [andb]. now cq.
Qed.

(* ---- members ---- *)
Lemma restOfMembers_stop g ty acc rest : 0 < g -> hd_tok rest = Semi -> restOfMembers g ty acc (start rest) = Done (true, acc) (start rest).
Proof. intros L F. destruct g; [lia|]. cbn [restOfMembers]. cbv zeta. rewrite look_h by now rewrite F. cq. now rewrite F. Qed.
Lemma restOfMembers_ok ty ts ms : Vars YC ty ts ms -> forall g acc rest, length ts < g -> hd_tok rest = Semi ->
  restOfMembers (S g) ty acc (start (E TComma :: ts ++ rest)) = Done (true, acc ++ ms) (start rest).
Proof.
  induction 1 as [i ts n H|i ts n more ms H HV IH]; intros g acc rest L F; cbn [restOfMembers]; cbv zeta; cq.
  - rewrite (initial_s _ n); [|exact H|now left]. apply restOfMembers_stop; [lia | exact F].
  - rewrite <- app_assoc. cbn [app]. rewrite (initial_s _ n); [|exact H|now right]. destruct g as [|g]; [lia|].
    rewrite IH; [now rewrite <- app_assoc | | exact F]. cbn in L. rewrite app_length in L. cbn in L. lia.
Qed.
Lemma memberEnd_ok ms rest : memberEnd (Done (true, ms) (start (Semi :: rest))) = Done (true, ms) (start rest).
Proof. unfold memberEnd. cbn [sbind fst snd]. now rewrite expect_s by reflexivity. Qed.
Lemma func_ok element name ts f rest : Func XC YC kind isref false ts f -> dataMember kind isref element name (start (ts ++ rest)) = Done (true, [MFunc f]) (start rest).
Proof.
  intros [fl over virt t i ps params dots b c HF HP HC HD|fl over t ps params dots b c K R HF HP NE HC HD].
  - assert (A : forall w, varOrFunc kind isref over virt w (start ((E (TType t) :: E (TIdent i) :: E TOpen :: ps ++ E TClose :: b) ++ rest)) = 
      Done (true, [MFunc {| f_override := over; f_virtual := virt; f_constr := false; f_ty := t; f_id := i; f_params := params; f_dots := dots; f_code := c |}]) (start rest)).
    { intro w. unfold varOrFunc. cbv zeta. cq. rewrite <- app_assoc. cbn [app]. rewrite (function_ok over virt false t i _ _ _ _ _ _ HP HC); [reflexivity | discriminate | exact HD]. }
    destruct HF; rewrite <- ?app_assoc; unfold dataMember; cbv zeta; cq; apply A.
  - destruct HF as [[-> ->]|[Z _]]; [|discriminate]. unfold dataMember. cbv zeta. cq. unfold varOrFunc. cbv zeta. cq. rewrite K. rewrite <- app_assoc. cbn [app].
    rewrite (function_ok false false true t 0%N _ _ _ _ _ _ HP HC); [reflexivity | auto | exact HD].
Qed.
Lemma member_ok element name ts ms rest : Member XC YC kind isref false element name ts ms ->
  dataMember kind isref element name (start (ts ++ rest)) = Done (true, ms) (start rest).
Proof.
  intros [t a K NN|t i e n K R H|t i e n EL K1 K2 R H|ts' f H|t ts' ms' R H].
  - unfold dataMember. cbv zeta. cq. unfold typedef. cbv zeta. cq. rewrite K. destruct (N.eqb_spec a name); [contradiction|]. unfold tok_of. cq. apply memberEnd_ok.
  - unfold dataMember. cbv zeta. cq. unfold constdef. cbv zeta. cq. rewrite R. rewrite <- app_assoc. cbn [app]. rewrite (constantDef_stmt e n) by exact H.
    unfold tok_of. cq. destruct (kind t); try (now elim K); apply memberEnd_ok.
  - subst element. unfold dataMember. cbv zeta. cq. unfold modelParameter. cbv zeta. cbn [negb]. cq. rewrite R. rewrite <- app_assoc. cbn [app]. rewrite (parameterDef_ok e n) by exact H.
    unfold tok_of. cq. destruct (kind t); try (now elim K1); try (now elim K2); apply memberEnd_ok.
  - now apply func_ok.
  - unfold dataMember. cbv zeta. cq. unfold varOrFunc. cbv zeta. cq. 
    assert (A : exists i tl, ts' = E (TIdent i) :: tl /\ noerr (hd_tok (tl ++ Semi :: rest)) = true /\ (match hd_tok (tl ++ Semi :: rest) with E TOpen | E TOpenSq | E TSquare => False | _ => True end) /\
      initial (start (tl ++ Semi :: rest)) (fun n s5 => restOfMembers (S (length (toks s5))) t [MVar t i n] s5) = Done (true, ms') (start (Semi :: rest))).
    { clear ms ts. destruct H as [i ts n H|i ts n more ms H HV].
      - exists i, ts. split; [reflexivity|]. split; [now destruct H|]. split; [now destruct H|]. rewrite (initial_s _ n); [|exact H|now left]. apply restOfMembers_stop; [lia | reflexivity].
      - exists i, (ts ++ E TComma :: more). split; [reflexivity|]. split; [now destruct H|]. split; [now destruct H|]. rewrite <- app_assoc. rewrite (initial_s _ n); [|exact H|now right].
        rewrite toks_s. cbn [app length]. rewrite (restOfMembers_ok _ _ _ HV); [reflexivity | rewrite app_length; cbn; lia | reflexivity]. }
    destruct A as (i & tl & -> & A1 & A2 & A3). rewrite <- app_assoc. cbn [app]. cq. rewrite look_h by exact A1. rewrite toks_s, A3, R, memberEnd_ok.
    destruct (hd_tok (tl ++ Semi :: rest)) as [[]| | | | | | | | | | | | | | | | |]; try reflexivity; destruct A2.
Qed.
Lemma dataMember_end element name rest : dataMember kind isref element name (start (CloseC :: rest)) = Done (false, []) (start (CloseC :: rest)).
Proof. reflexivity. Qed.
Lemma member_hd element name ts ms : Member XC YC kind isref false element name ts ms -> ts <> [] /\ noerr (hd_tok ts) = true /\ same (hd_tok ts) CloseC = false.
Proof.
  intros [t a K NN|t i e n K R H|t i e n EL K1 K2 R H|ts' f H|t ts' ms' R H]; try (repeat split; discriminate).
  destruct H as [fl over virt t i ps params dots b c HF HP HC HD|fl over t ps params dots b c K R HF HP NE HC HD].
  - destruct HF; repeat split; discriminate.
  - destruct HF as [[-> ->]|[Z _]]; [|discriminate]. repeat split; discriminate.
Qed.
Lemma members_ok element name ts ms : Members XC YC kind isref false element name ts ms -> forall g acc rest, length ts < g ->
  dataMembers kind isref g element name acc (start (ts ++ CloseC :: rest)) = Done (acc ++ ms) (start (CloseC :: rest)).
Proof.
  induction 1 as [|ts ms more rs HM HS IH]; intros g acc rest L; (destruct g as [|g]; [lia|]); cbn [dataMembers].
  - reflexivity.
  - rewrite <- app_assoc. rewrite (member_ok _ _ _ _ _ HM). cbn [sbind fst snd]. rewrite IH; [now rewrite <- app_assoc|].
    destruct (member_hd _ _ _ _ HM) as [NE _]. rewrite app_length in L. destruct ts; [congruence|]. cbn in L. lia.
Qed.

(* ---- classes ---- *)
Lemma super_hd name s sup rest : Super kind false name s sup -> noerr (hd_tok rest) = true -> noerr (hd_tok (s ++ rest)) = true.
Proof. intros [|b t H|b H] F; auto. Qed.
Lemma bases_hd name b bs rest : Bases kind false name b bs -> hd_tok (b ++ OpenC :: rest) = OpenC \/ hd_tok (b ++ OpenC :: rest) = E (TBin Add).
Proof. intros [|x o more y HB HM]; auto. Qed.
Lemma classBlock_ok k conc name h ps s sup b bs ms mems rest :
  Head YC kind isref false h ps -> Super kind false name s sup -> Bases kind false name b bs ->
  Members XC YC kind isref false (match k with Element => true | _ => false end) name ms mems ->
  classBlock kind isref k conc name (start (h ++ s ++ b ++ OpenC :: ms ++ CloseC :: rest)) =
    Done (Some {| c_kind := k; c_concrete := conc; c_name := name; c_params := ps; c_super := sup; c_bases := bs; c_members := mems |}) (start rest).
Proof.
  intros HH HS HB HM. set (r3 := OpenC :: ms ++ CloseC :: rest). set (r2 := b ++ r3). set (r1 := s ++ r2).
  assert (H2 : hd_tok r2 = OpenC \/ hd_tok r2 = E (TBin Add)) by (unfold r2, r3; now apply bases_hd with (1 := HB)).
  assert (N2 : noerr (hd_tok r2) = true) by (destruct H2 as [-> | ->]; reflexivity).
  assert (H1 : hd_tok r1 = E TColon \/ (s = [] /\ r1 = r2)). { unfold r1. destruct HS; auto. }
  assert (N1 : noerr (hd_tok r1) = true) by (destruct H1 as [-> | [_ ->]]; [reflexivity | exact N2]).
  unfold classBlock. cbv zeta.
  assert (A1 : look (start (h ++ r1)) = start (h ++ r1)). { apply look_h. destruct HH; [exact N1 | reflexivity]. }
  rewrite A1, toks_s.
  assert (A2 : match hd_tok (h ++ r1) with E TOpen => classParams kind isref (S (length (h ++ r1))) [] (drop (start (h ++ r1))) | _ => Done [] (start (h ++ r1)) end = Done ps (start r1)).
  { destruct HH as [|ts ps' HP].
    - cbn [app]. destruct H1 as [-> | [_ ->]]; [reflexivity|]. destruct H2 as [-> | ->]; reflexivity.
    - cbn [app hd_tok]. rewrite drop_s, <- app_assoc. cbn [app]. rewrite (classParams_ok _ _ _ HP); [reflexivity | cbn [length]; rewrite app_length; lia | reflexivity]. }
  rewrite A2. cbn [sbind]. rewrite look_h by exact N1. rewrite toks_s.
  assert (A3 : match hd_tok r1 with E TColon => sbind (baseClass kind name (drop (start r1))) (fun b s4 => Done (match b with Some t => SIs t | None => SUnset end) s4) | _ => Done SDefault (start r1) end = Done sup (start r2)).
  { unfold r1. destruct HS as [|b' t HB'|b' HB'].
    - cbn [app]. destruct H2 as [-> | ->]; reflexivity.
    - cbn [app hd_tok]. rewrite drop_s. now rewrite (proj1 (baseClass_ok _ _ _ _ HB')).
    - exfalso. destruct (baseClass_ok _ _ _ r2 HB') as [_ (t & Z)]. discriminate. }
  rewrite A3. cbn [sbind]. rewrite toks_s. unfold r2. rewrite (baseClasses_ok _ _ _ HB); [|rewrite app_length; lia|reflexivity]. cbn [sbind app]. unfold r3.
  rewrite expect_s by reflexivity. destruct ms as [|m ms'].
  - cbn [app]. rewrite expect_s by reflexivity. inversion HM as [|ts ms0 more rs HM1 HM2 E1]; [reflexivity|]. apply app_eq_nil in E1. destruct E1 as [-> _]. now destruct (member_hd _ _ _ _ HM1) as [Z _].
  - assert (A4 : noerr m = true /\ same m CloseC = false).
    { inversion HM as [|ts ms0 more rs HM1 HM2 E1]. destruct (member_hd _ _ _ _ HM1) as (Z1 & Z2 & Z3). destruct ts as [|x ts]; [congruence|]. cbn [app] in E1. injection E1 as -> _. now split. }
    rewrite expect_n by apply A4. rewrite toks_s. rewrite (members_ok _ _ _ _ HM) by (rewrite app_length; cbn; lia). cbn [sbind app]. now rewrite expect_s by reflexivity.
Qed.
Lemma class_ok ts c : Class XC YC kind isref false ts c -> forall g rest, 1 < g ->
  thisClass kind isref g false (start (ts ++ rest)) = Done (false, [c]) (start rest).
Proof.
  intros [k conc fl name h ps s sup b bs ms mems K HF HH HS HB HM] g rest L. destruct g as [|[|g]]; [lia|lia|].
  assert (A : forall g, thisClass kind isref (S g) conc (start ((Other (word_of k) :: E (TType name) :: h ++ s ++ b ++ OpenC :: ms ++ [CloseC]) ++ rest)) = 
     Done (false, [{| c_kind := k; c_concrete := conc; c_name := name; c_params := ps; c_super := sup; c_bases := bs; c_members := mems |}]) (start rest)).
  { clear g L. intro g. cbn [thisClass]. cbv zeta. cq. replace (kind_of (Other (word_of k))) with (Some k) by now destruct k. cq. rewrite <- !app_assoc. cbn [app]. rewrite <- app_assoc. cbn [app]. rewrite K, (classBlock_ok k conc name _ _ _ _ _ _ _ _ rest HH HS HB HM). reflexivity. }
  destruct HF as [[-> ->]|[[-> ->]|[Z _]]]; [apply A | | discriminate].
  cbn [app]. cbn [thisClass]. cbv zeta. cq. cbn [kind_of]. exact (A g).
Qed.
Lemma class_ne ts c : Class XC YC kind isref false ts c -> 2 <= length ts.
Proof. intros [k conc fl name h ps s sup b bs ms mems K HF HH HS HB HM]. rewrite app_length. cbn. lia. Qed.
Lemma file_ok ts cs : File XC YC kind isref false ts cs -> forall g acc, length ts < g -> parseFile kind isref g acc (start ts) = Done (acc ++ cs) (start []).
Proof.
  induction 1 as [m HL|ts c more cs HC HF IH]; intros g acc L; (destruct g as [|g]; [lia|]); cbn [parseFile].
  - destruct m as [|m]; [reflexivity|]. now specialize (HL ltac:(discriminate)).
  - pose proof (class_ne _ _ HC) as N. rewrite toks_s. rewrite (class_ok _ _ HC); [|rewrite app_length; lia]. cbn [sbind fst snd].
    rewrite IH; [now rewrite <- app_assoc|]. rewrite app_length in L. lia.
Qed.
End Complete.
