(* StmtComplete.v: the statement parser reads every phrase of the grammar as its tree. *)
From Coq Require Import List PeanoNat NArith Lia Bool.
From Verif Require Import Base ExprModel ExprSpec ExprProofs ExprValue ExprComplete ExprTheorems StmtModel StmtSpec StmtProofs.
Import ListNotations.
Open Scope nat_scope.

Definition is_as_tok (t : tok) : bool := match t with TIs true => true | _ => false end.
Definition has_as (e : list tok) : bool := existsb is_as_tok e.
(* a condition: an expression of the grammar with as only as its last operator; any other expression: without as *)
Definition XC (e : list tok) (n : node) : Prop := G true CAssign e n /\ has_as e = root_as n.
Definition YC (assign : bool) (e : list tok) (n : node) : Prop := G true (if assign then CAssign else CExpr) e n /\ has_as e = false.

Section Complete.
Variables e0 l0 : bool.
Definition Q (ts : list stok) (a : bool) (d : dflt) : st := {| toks := ts; err := e0; asf := a; dfl := d; lost := l0 |}.

Lemma map_as e rest : map as_tok (map E e ++ rest) = e ++ map as_tok rest.
Proof. rewrite map_app, map_map. cbn. now rewrite map_id. Qed.
Lemma existsb_E e : existsb is_as (map E e) = has_as e.
Proof. induction e as [|x e IH]; [reflexivity|]. cbn. rewrite IH. now destruct x. Qed.
Lemma as_hd rest : first (map as_tok rest) = as_tok (hd_tok rest). Proof. now destruct rest. Qed.

Lemma expr_got {A} t e n rest a d (k : node -> st -> res A) :
  etask t -> V t (e ++ map as_tok rest) = Got n (map as_tok rest) false -> null n = false ->
  expr t (Q (map E e ++ rest) a d) k = k n (Q rest (a || has_as e) d).
Proof.
  intros T H N. unfold expr. rewrite run_enough by exact T. cbn [Q toks err asf dfl lost]. rewrite map_as, H.
  rewrite app_length, !map_length. replace (length e + length rest - length rest) with (length (map E e)) by (rewrite map_length; lia).
  rewrite firstn_app, skipn_app, Nat.sub_diag, firstn_all, skipn_all. cbn [firstn skipn]. rewrite app_nil_r, existsb_E, N. cbn [andb].
  unfold Q. cbn [app]. now rewrite !orb_false_r.
Qed.
Lemma expr_assign {A} e n rest a d (k : node -> st -> res A) :
  G true CAssign e n -> ender (as_tok (hd_tok rest)) -> expr Assign (Q (map E e ++ rest) a d) k = k n (Q rest (a || has_as e) d).
Proof.
  intros H F. apply expr_got; [now left | | exact (G_nn _ _ _ _ H)]. rewrite <- parse_V. apply C41_grammar_partial; [exact H|]. now rewrite as_hd.
Qed.
Lemma expr_level {A} e n rest a d (k : node -> st -> res A) :
  G true CExpr e n -> ender (as_tok (hd_tok rest)) -> expr (Level 0) (Q (map E e ++ rest) a d) k = k n (Q rest (a || has_as e) d).
Proof.
  intros H F. apply expr_got; [now right | | exact (G_nn _ _ _ _ H)]. destruct (proj1 complete _ _ _ H) as [Hp _]. cbn [P] in Hp.
  rewrite <- as_hd in F. apply Hp; [apply fol_closed|]; destruct (first (map as_tok rest)); easy.
Qed.
Lemma expr_none {A} rest a d (k : node -> st -> res A) :
  as_tok (hd_tok rest) = TEnd \/ as_tok (hd_tok rest) = TClose -> expr Assign (Q rest a d) k = k NNull (Q rest a d).
Proof.
  intro H. unfold expr. rewrite run_enough by now left. cbn [Q toks err asf dfl lost]. rewrite V_nothing by now rewrite as_hd.
  rewrite map_length, Nat.sub_diag. cbn [firstn skipn existsb negb andb null]. unfold Q. now rewrite !orb_false_r.
Qed.

Lemma look_Q ts a d : hd_tok ts <> E TErr -> look (Q ts a d) = Q ts a d.
Proof. intro H. now apply look_id. Qed.
Lemma toks_Q ts a d : toks (Q ts a d) = ts. Proof. reflexivity. Qed.
Lemma asf_Q ts a d : asf (Q ts a d) = a. Proof. reflexivity. Qed.
Lemma dfl_Q ts a d : dfl (Q ts a d) = d. Proof. reflexivity. Qed.
Lemma drop_Q t ts a d : drop (Q (t :: ts) a d) = Q ts a d. Proof. reflexivity. Qed.
Lemma set_dfl_Q ts a d d' : set_dfl (Q ts a d) d' = Q ts a d'. Proof. reflexivity. Qed.
Lemma set_asf_Q ts a d b : set_asf (Q ts a d) b = Q ts b d. Proof. reflexivity. Qed.
Definition noerr (t : stok) : bool := match t with E TErr => false | _ => true end.
Lemma look_c t ts a d : noerr t = true -> look (Q (t :: ts) a d) = Q (t :: ts) a d.
Proof. intro H. apply look_Q. cbn. intros ->. discriminate. Qed.
Hint Rewrite toks_Q asf_Q dfl_Q drop_Q set_dfl_Q set_asf_Q : q.
Hint Rewrite look_c using reflexivity : q.
Ltac q := cbn [hd_tok app]; repeat (progress autorewrite with q; cbn [hd_tok app]).
Lemma expect_yes {A} q t ts a d (y n : st -> res A) : same t t = true -> expect q t (Q (t :: ts) a d) y n = y (Q ts a d).
Proof.
  intro S. unfold expect. rewrite look_Q by (cbn; intros ->; discriminate). cbn [Q toks hd_tok]. rewrite S. reflexivity.
Qed.
Lemma expect_no {A} t ts a d (y n : st -> res A) : hd_tok ts <> E TErr -> same (hd_tok ts) t = false -> expect true t (Q ts a d) y n = n (Q ts a d).
Proof. intros H S. unfold expect. rewrite look_Q by exact H. cbn [Q toks]. now rewrite S. Qed.

Lemma hd_E e rest : e <> [] -> hd_tok (map E e ++ rest) = E (first e). Proof. destruct e; [congruence | reflexivity]. Qed.
Lemma hd_G {s c e n} rest : G s c e n -> hd_tok (map E e ++ rest) = E (first e). Proof. intro H. apply hd_E, (G_ne _ _ _ _ H). Qed.

Ltac lookE H := rewrite look_Q by (rewrite (hd_G _ H); injection; apply (G_noerr _ _ _ _ H)); rewrite toks_Q, (hd_G _ H).

Ltac exprA H := match type of H with G _ _ ?e ?n => rewrite (expr_assign e n); [|exact H|try exact I] end.

(* ---- declarations ---- *)
Definition decl_end (t : stok) : Prop := t = Semi \/ t = E TComma.
Lemma initial_ok {A} ts n rest a d (k : node -> st -> res A) : Init YC ts n -> decl_end (hd_tok rest) -> initial (Q (ts ++ rest) a d) k = k n (Q rest a d).
Proof.
  intros H F. unfold initial, tok_of. destruct H as [|e n [H NA]].
  - cbn [app]. rewrite look_Q by (destruct F as [-> | ->]; discriminate). q. destruct F as [-> | ->]; reflexivity.
  - q. cbv zeta. q. lookE H. rewrite (expr_level e n); [|exact H|destruct F as [-> | ->]; exact I]. now rewrite NA, orb_false_r, (G_nn _ _ _ _ H).
Qed.
Lemma restOfDecls_stop g ty acc rest a d : 0 < g -> hd_tok rest = Semi -> restOfDecls g ty acc (Q rest a d) = Done acc (Q rest a d).
Proof. intros Hg F. destruct g; [lia|]. cbn [restOfDecls]. unfold tok_of. rewrite look_Q by (rewrite F; discriminate). q. now rewrite F. Qed.
Lemma restOfDecls_ok ty ts ds : Decls YC ty ts ds -> forall g acc rest a d, length (ts ++ rest) < g -> hd_tok rest = Semi ->
  restOfDecls (S g) ty acc (Q (E TComma :: ts ++ rest) a d) = Done (acc ++ ds) (Q rest a d).
Proof.
  induction 1 as [i ts n H|i ts n more ds H HD IH]; intros g acc rest a d L F; cbn [restOfDecls]; unfold tok_of; q; cbv zeta; q.
  - rewrite (initial_ok _ n); [|exact H|now left]. apply restOfDecls_stop; [lia | exact F].
  - rewrite <- app_assoc. cbn [app]. rewrite (initial_ok _ n); [|exact H|now right]. destruct g as [|g]; [lia|].
    rewrite IH; [now rewrite <- app_assoc | | exact F]. cbn in L. rewrite !app_length in L. cbn in L. rewrite !app_length in *. lia.
Qed.
Lemma parseDecl_ok ty ts ds rest a d : Decls YC ty ts ds -> hd_tok rest = Semi ->
  parseDecl (Q (E (TType ty) :: ts ++ rest) a d) = Done ds (Q rest a d).
Proof.
  intros H F. unfold parseDecl, tok_of. q. cbv zeta. destruct H as [i ts n H|i ts n more ds H HD]; q.
  - rewrite (initial_ok _ n); [|exact H|now left]. apply restOfDecls_stop; [lia | exact F].
  - rewrite <- app_assoc. cbn [app]. rewrite (initial_ok _ n); [|exact H|now right]. q. cbn [length].
    rewrite (restOfDecls_ok _ _ _ HD); [reflexivity | lia | exact F].
Qed.

(* ---- labels ---- *)
Definition single (value : bool) (n : node) : cond := if value then CCase n else CNode n.
Lemma restOfCase_ok value ls l o : Labels XC ls l o -> (forall n, In n l -> as_cond n = None) ->
  forall g acc rest, length (ls ++ OpenC :: rest) < g -> acc <> Some CTrue ->
  restOfCase g value acc (Q (ls ++ OpenC :: rest) false DNone) =
    Done (if o then Some CTrue else match acc with Some c => Some (any value c l) | None => labels value l false end) (Q (OpenC :: rest) false (if o then DLive else DNone)).
Proof.
  induction 1 as [| |e n ts l o [HG HA] HL IH]; intros NA g acc rest Hg Hacc; (destruct g as [|g]; [lia|]).
  - cbn. destruct acc; reflexivity.
  - cbn [restOfCase]. cbv zeta. q. rewrite expect_yes by reflexivity. destruct g as [|g]; [cbn in Hg; lia|].
    cbn [restOfCase]. cbv zeta. q. destruct acc; reflexivity.
  - cbn [restOfCase]. cbv zeta. q. rewrite <- app_assoc. q.
    exprA HG. rewrite (G_nn _ _ _ _ HG).
    assert (NAn : has_as e = false). { rewrite HA. unfold root_as. now rewrite (NA n) by now left. }
    rewrite NAn. cbn [orb]. q. rewrite expect_yes by reflexivity. rewrite IH.
    + f_equal. destruct o; [reflexivity|]. destruct acc as [c|]; destruct value; reflexivity.
    + intros m Hm. apply NA. now right.
    + cbn in Hg. rewrite !app_length in Hg. cbn in Hg. rewrite !app_length in *. cbn in *. lia.
    + destruct acc, value; discriminate.
Qed.
Lemma restOfCase_as e n ty rest g : XC e n -> as_cond n = Some ty -> 0 < g ->
  restOfCase g false None (Q (KCase :: map E e ++ E TColon :: rest) false DNone) = Done (Some (CNode n)) (Q rest true DNone).
Proof.
  intros [HG HA] HT Hg. destruct g as [|g]; [lia|]. cbn [restOfCase]. cbv zeta. q.
  exprA HG. rewrite (G_nn _ _ _ _ HG).
  assert (NAn : has_as e = true). { rewrite HA. unfold root_as. now rewrite HT. }
  rewrite NAn. cbn [orb]. q. now rewrite expect_yes by reflexivity.
Qed.

(* ---- statements ---- *)
Definition follow (rest : list stok) : Prop := hd_tok rest <> KElse /\ hd_tok rest <> E TErr.
Definition starts (t : stok) : Prop := t <> E TErr /\ t <> CloseC /\ t <> KElse /\ t <> E TEnd.
Definition PSt (b c op : bool) (ts : list stok) (tr : list tree) : Prop :=
  starts (hd_tok ts) /\
  forall rest d, (op = true -> follow rest) -> SV (Statement b c) (Q (ts ++ rest) false d) = Done tr (Q rest false d).
Definition PSts (b c : bool) (ts : list stok) (tr : list tree) : Prop :=
  (ts = [] -> tr = []) /\ (ts <> [] -> starts (hd_tok ts)) /\
  (ts <> [] -> forall rest d, SV (Statements b c) (Q (ts ++ CloseC :: rest) false d) = Done tr (Q (CloseC :: rest) false d)).
Definition is_some {A} (o : option A) : bool := match o with Some _ => true | None => false end.
Definition PBody (b c op : bool) (ty : option N) (ts : list stok) (t : tree) : Prop :=
  starts (hd_tok ts) /\
  forall rest d cnd, (op = true -> follow rest) -> (ty <> None -> as_type cnd = ty) ->
    body SV b c cnd (Q (ts ++ rest) (is_some ty) d) = Done [t] (Q rest false d).
Definition PCases (c value later : bool) (ts : list stok) (tr : list tree) : Prop :=
  forall rest, exists d, d <> DDead /\
    SV (NextCase true c value later) (Q (ts ++ CloseC :: rest) false DNone) = Done tr (Q (CloseC :: rest) false d).

Lemma hd_app ts rest : hd_tok ts <> E TEnd -> hd_tok (ts ++ rest) = hd_tok ts. Proof. destruct ts; [intro H; now elim H | reflexivity]. Qed.
Lemma starts_hd ts rest : starts (hd_tok ts) -> hd_tok (ts ++ rest) = hd_tok ts. Proof. intros (_ & _ & _ & H). now apply hd_app. Qed.
Lemma simple_semi ts a d rest : semi (Done ts (Q (Semi :: rest) a d)) = Done ts (Q rest a d).
Proof. unfold semi. cbn [sbind]. now rewrite expect_yes by reflexivity. Qed.

Lemma SV_simple b c ts a d : starts (hd_tok ts) ->
  match hd_tok ts with OpenC | KIf | KElse | KWhile | KFor | KWhich => False | _ => True end ->
  SV (Statement b c) (Q ts a d) = parseSimpleStatement b c (Q ts a d).
Proof.
  intros (S1 & _) H. rewrite SV_step. cbn [step]. rewrite look_Q by exact S1. q. destruct (hd_tok ts); try reflexivity; contradiction.
Qed.
Lemma SV_ctl b c ts a d :
  match hd_tok ts with KIf | KWhile | KFor | KWhich => True | _ => False end -> SV (Statement b c) (Q ts a d) = parseControlStatement SV b c (Q ts a d).
Proof.
  intros H. rewrite SV_step. cbn [step]. rewrite look_Q by (intro X; now rewrite X in H). q. destruct (hd_tok ts); try reflexivity; contradiction.
Qed.

Lemma block_ok b c ts tr rest d : PSts b c ts tr -> SV (Block b c) (Q (OpenC :: ts ++ CloseC :: rest) false d) = Done [TBlock tr] (Q rest false d).
Proof.
  intros (P1 & P2 & P3). rewrite SV_step. cbn [step]. rewrite expect_yes by reflexivity. destruct ts as [|x ts].
  - cbn [app]. rewrite expect_yes by reflexivity. now rewrite P1.
  - assert (NE : x :: ts <> []) by discriminate. destruct (P2 NE) as (S1 & S2 & S3 & S4). rewrite expect_no.
    + rewrite (P3 NE). cbn [sbind]. now rewrite expect_yes by reflexivity.
    + exact S1.
    + cbn [hd_tok app] in *. destruct x as [[]| | | | | | | | | | | | | | | | |]; try reflexivity. now elim S2.
Qed.
Lemma not_curly ts : ~ curly ts -> hd_tok ts <> OpenC. Proof. destruct ts as [|[] ts]; cbn; try discriminate. tauto. Qed.

Lemma while_ok pre cnd stp op ty ts t rest d :
  PBody true true op ty ts t -> (ty <> None -> as_type cnd = ty) -> (op = true -> follow rest) ->
  makeControlWhileNode SV pre cnd stp (Q (ts ++ rest) (is_some ty) d) = Done [TBlock (pre ++ [TWhile cnd t stp])] (Q rest false d).
Proof. intros [_ H] T F. unfold makeControlWhileNode. now rewrite H by assumption. Qed.
Lemma root_some n : root_as n = is_some (as_cond n). Proof. unfold root_as. now destruct (as_cond n). Qed.
Lemma G_start s c ts n : G s c ts n -> first ts <> TClose /\ first ts <> TEnd.
Proof.
  induction 1; auto; try (rewrite first_app by (eapply G_ne; eassumption); assumption); try (split; discriminate).
  destruct t; try discriminate; split; discriminate.
Qed.
Lemma forAssign_ok pre cnd s stp a d op ty ts t rest :
  ForStep YC s stp -> PBody true true op ty ts t -> (ty <> None -> as_type cnd = ty) -> a = is_some ty -> (op = true -> follow rest) ->
  forAssign SV pre cnd (Q (s ++ E TClose :: ts ++ rest) a d) = Done [TBlock (pre ++ [TWhile cnd t stp])] (Q rest false d).
Proof.
  intros HS HB T -> F. unfold forAssign. cbv zeta. destruct HS as [|e n [HG HA]].
  - q. now apply (while_ok _ _ _ op ty).
  - lookE HG. exprA HG. rewrite HA, orb_false_r, (G_nn _ _ _ _ HG).
    rewrite expect_yes by reflexivity. rewrite (while_ok _ _ _ op ty _ t) by assumption.
    pose proof (proj1 (G_start _ _ _ _ HG)) as K. destruct (first e); try reflexivity. now elim K.
Qed.
Lemma forCond_ok pre e cnd s stp d op ts t rest :
  ForCond XC e cnd -> ForStep YC s stp -> PBody true true op (match cnd with CNode n => as_cond n | _ => None end) ts t -> (op = true -> follow rest) ->
  forCond SV pre (Q (e ++ Semi :: s ++ E TClose :: ts ++ rest) false d) = Done [TBlock (pre ++ [TWhile cnd t stp])] (Q rest false d).
Proof.
  intros HC HS HB F. unfold forCond. cbv zeta. destruct HC as [|e n [HG HA]].
  - q. apply (forAssign_ok _ _ _ _ _ _ op None); auto; congruence.
  - lookE HG. exprA HG. cbn [orb]. rewrite HA, (G_nn _ _ _ _ HG). rewrite expect_yes by reflexivity.
    apply (forAssign_ok _ _ _ stp _ _ op (as_cond n) _ t); auto.
Qed.

Lemma complete_all :
  (forall b c op ts tr, St XC YC b c op ts tr -> PSt b c op ts tr) /\ (forall b c ts tr, Sts XC YC b c ts tr -> PSts b c ts tr) /\
  (forall b c op ty ts t, Body XC YC b c op ty ts t -> PBody b c op ty ts t) /\
  (forall c value later ts tr, Cases XC YC c value later ts tr -> PCases c value later ts tr).
Proof.
  assert (ST : forall t, match t with E TErr | CloseC | KElse | E TEnd => False | _ => True end -> starts t).
  { intros t H. repeat split; intros ->; exact H. }
  apply (St_all XC YC PSt PSts PBody PCases).
  - split; [now apply ST|]. intros rest d _. cbn [app]. rewrite SV_simple by (try exact I; now apply ST). rewrite simple_eq. cbv zeta. q. apply simple_semi.
  - intros b c e n [HG HA] PS. assert (S0 : starts (hd_tok (map E e ++ [Semi]))).
    { rewrite (hd_G _ HG). pose proof (G_noerr _ _ _ _ HG). destruct (G_start _ _ _ _ HG). apply ST. destruct (first e); cbn; auto. }
    split; [exact S0|]. intros rest d _. rewrite SV_simple; [|now rewrite starts_hd|now rewrite starts_hd, (hd_G _ HG)].
    rewrite <- app_assoc. cbn [app]. rewrite simple_eq. cbv zeta. lookE HG. exprA HG. rewrite HA, (G_nn _ _ _ _ HG). cbn [orb].
    pose proof (G_noerr _ _ _ _ HG) as NE. destruct e as [|x e]; [destruct PS|]. cbn [first] in *.
    destruct x; try apply simple_semi; now destruct PS.
  - intros b c ty ts ds HD. split; [now apply ST|]. intros rest d _. cbn [app]. rewrite SV_simple by (try exact I; now apply ST). rewrite simple_eq. cbv zeta. q.
    rewrite <- app_assoc. cbn [app]. rewrite (parseDecl_ok _ _ _ _ _ _ HD) by reflexivity. apply simple_semi.
  - split; [now apply ST|]. intros rest d _. cbn [app]. rewrite SV_simple by (try exact I; now apply ST). rewrite simple_eq. cbv zeta. q.
    rewrite expr_none by now left. apply simple_semi.
  - intros b c e n [HG HA]. split; [now apply ST|]. intros rest d _. cbn [app]. rewrite SV_simple by (try exact I; now apply ST). rewrite simple_eq. cbv zeta. q.
    rewrite <- app_assoc. cbn [app]. exprA HG. rewrite HA. cbn [orb]. apply simple_semi.
  - split; [now apply ST|]. intros rest d _. cbn [app]. rewrite SV_simple by (try exact I; now apply ST). rewrite simple_eq. cbv zeta. q. apply simple_semi.
  - split; [now apply ST|]. intros rest d _. cbn [app]. rewrite SV_simple by (try exact I; now apply ST). rewrite simple_eq. cbv zeta. q. apply simple_semi.
  - intros b c ts tr _ PS. split; [now apply ST|]. intros rest d _. cbn [app]. rewrite SV_step. cbn [step]. cbv zeta. q.
    rewrite <- app_assoc. cbn [app]. now apply block_ok.
  - (* if *)
    intros b c op e n ts t [HG HA] _ [B1 B2]. split; [now apply ST|]. intros rest d F. specialize (F eq_refl). cbn [app].
    rewrite SV_ctl by exact I. unfold parseControlStatement. cbv zeta. q. unfold parseControlIf. rewrite expect_yes by reflexivity.
    rewrite <- app_assoc. cbn [app]. exprA HG. rewrite (G_nn _ _ _ _ HG), HA, root_some. cbn [orb]. rewrite expect_yes by reflexivity.
    rewrite B2; [|auto|auto]. cbn [sbind]. destruct F as [F1 F2]. rewrite expect_no; [reflexivity | exact F2|].
    destruct (hd_tok rest) as [[]| | | | | | | | | | | | | | | | |]; try reflexivity. now elim F1.
  - (* if else *)
    intros b c op e n ts t ts' t' [HG HA] _ [B1 B2] _ [C1 C2]. split; [now apply ST|]. intros rest d F. cbn [app].
    rewrite SV_ctl by exact I. unfold parseControlStatement. cbv zeta. q. unfold parseControlIf. rewrite expect_yes by reflexivity.
    rewrite <- app_assoc. cbn [app]. exprA HG. rewrite (G_nn _ _ _ _ HG), HA, root_some. cbn [orb]. rewrite expect_yes by reflexivity.
    rewrite <- app_assoc. cbn [app]. rewrite B2; [|discriminate|auto]. cbn [sbind]. rewrite expect_yes by reflexivity.
    specialize (C2 rest d CTrue F ltac:(congruence)). unfold body in C2. cbn [is_some] in C2. rewrite asf_Q in C2. now rewrite C2.
  - (* while *)
    intros b c op e n ts t [HG HA] _ PB. split; [now apply ST|]. intros rest d F. cbn [app].
    rewrite SV_ctl by exact I. unfold parseControlStatement. cbv zeta. q. unfold parseControlWhile. rewrite expect_yes by reflexivity.
    rewrite <- app_assoc. cbn [app]. exprA HG. rewrite (G_nn _ _ _ _ HG), HA, root_some. cbn [orb]. rewrite expect_yes by reflexivity.
    now apply (while_ok [] _ _ op (as_cond n)).
  - (* for *)
    intros b c op i init e cnd s stp ts t HI HC HS _ PB. split; [now apply ST|]. intros rest d F. cbn [app].
    rewrite SV_ctl by exact I. unfold parseControlStatement. cbv zeta. q. unfold parseControlFor. rewrite expect_yes by reflexivity. cbv zeta.
    rewrite <- app_assoc. cbn [app]. rewrite <- app_assoc. cbn [app]. rewrite <- app_assoc. cbn [app].
    assert (FC : forall pre, forSemi SV pre (Q (Semi :: e ++ Semi :: s ++ E TClose :: ts ++ rest) false d) = Done [TBlock (pre ++ [TWhile cnd t stp])] (Q rest false d)).
    { intro pre. unfold forSemi. q. now apply (forCond_ok _ _ _ _ _ _ op). }
    destruct HI as [|ty ts0 ds HD|e1 n1 [HG HA] IS].
    + q. apply FC.
    + q. rewrite (parseDecl_ok _ _ _ _ _ _ HD) by reflexivity. cbn [sbind]. q. apply FC.
    + lookE HG. destruct e1 as [|[] e1]; try (now destruct IS). cbn [first]. exprA HG. rewrite HA, (G_nn _ _ _ _ HG). cbn [orb]. q. apply FC.
  - (* which *)
    intros b c v n ts tr HV _ PC. split; [now apply ST|]. intros rest d _. cbn [app].
    rewrite SV_ctl by exact I. unfold parseControlStatement. cbv zeta. q. unfold parseControlSwitch. rewrite expect_yes by reflexivity. cbv zeta.
    rewrite <- app_assoc. cbn [app]. rewrite <- app_assoc. cbn [app]. destruct (PC rest) as (d' & ND & PC').
    destruct HV as [|e n [HG HA]].
    + unfold tok_of. q. rewrite expr_none by now right. cbn [null andb negb]. rewrite expect_yes by reflexivity. rewrite expect_yes by reflexivity. q.
      cbn [null negb] in PC'. rewrite PC'. cbn [sbind]. q. rewrite expect_yes by reflexivity. destruct d'; try reflexivity. now elim ND.
    + unfold tok_of. lookE HG. exprA HG. rewrite (G_nn _ _ _ _ HG), HA in *. cbn [andb orb negb] in *. rewrite expect_yes by reflexivity. rewrite expect_yes by reflexivity. q.
      destruct (first e) eqn:Ef; try (exfalso; exact (proj1 (G_start _ _ _ _ HG) Ef)); rewrite PC'; cbn [sbind]; q; (rewrite expect_yes by reflexivity); (destruct d'; try reflexivity; now elim ND).
  - (* statements *)
    repeat split; intros; congruence.
  - intros b c op ts tr more mr _ [S1 S2] _ (P1 & P2 & P3). split; [|split].
    + intro X. apply app_eq_nil in X. destruct X as [-> _]. now destruct S1 as (_ & _ & _ & X).
    + intros _. now rewrite starts_hd.
    + intros _ rest d. rewrite SV_step. cbn [step]. rewrite <- app_assoc. destruct more as [|x more].
      * cbn [app]. rewrite S2 by (split; discriminate). cbn [sbind]. cbv zeta. q. now rewrite P1, app_nil_r.
      * assert (NE : x :: more <> []) by discriminate. destruct (P2 NE) as (T1 & T2 & T3 & T4).
        rewrite S2 by (split; assumption). cbn [sbind]. cbv zeta. rewrite look_Q by exact T1. rewrite toks_Q. cbn [hd_tok app] in *.
        rewrite (P3 NE). cbn [sbind]. destruct x as [[]| | | | | | | | | | | | | | | | |]; try reflexivity; congruence.
  - (* bodies *)
    intros b c ts tr _ PS. split; [now apply ST|]. intros rest d cnd _ _. unfold body. cbn [is_some app]. q. rewrite SV_step. cbn [step]. unfold tok_of. q.
    rewrite <- app_assoc. cbn [app]. now apply block_ok.
  - intros b c op ts tr _ [S1 S2] NC. split; [exact S1|]. intros rest d cnd F _. unfold body. cbn [is_some]. q. rewrite SV_step. cbn [step]. unfold tok_of.
    pose proof (starts_hd ts rest S1) as HD. rewrite look_Q by (rewrite HD; apply S1). q. rewrite HD. rewrite S2 by exact F. cbn [sbind].
    apply not_curly in NC. destruct (hd_tok ts); try reflexivity. now elim NC.
  - intros b c ty ts tr _ (P1 & P2 & P3). split; [now apply ST|]. intros rest d cnd _ T. specialize (T ltac:(discriminate)). unfold body. cbn [is_some app]. q.
    rewrite SV_step. cbn [step]. rewrite T. cbv zeta. q. rewrite <- app_assoc. cbn [app]. destruct ts as [|x ts].
    + cbn [app]. rewrite expect_yes by reflexivity. now rewrite P1.
    + assert (NE : x :: ts <> []) by discriminate. destruct (P2 NE) as (T1 & T2 & T3 & T4). rewrite expect_no; [|exact T1|].
      * rewrite (P3 NE). cbn [sbind]. now rewrite expect_yes by reflexivity.
      * cbn [hd_tok app] in *. destruct x as [[]| | | | | | | | | | | | | | | | |]; try reflexivity. now elim T2.
  - intros b c op ty ts tr _ [S1 S2] NC. split; [exact S1|]. intros rest d cnd F T. specialize (T ltac:(discriminate)). unfold body. cbn [is_some]. q.
    rewrite SV_step. cbn [step]. rewrite T. cbv zeta. pose proof (starts_hd ts rest S1) as HD. rewrite look_Q by (rewrite HD; apply S1). q. rewrite HD. rewrite S2 by exact F. cbn [sbind].
    apply not_curly in NC. destruct (hd_tok ts); try reflexivity. now elim NC.
  - (* cases *)
    intros c value later rest. exists DNone. split; [discriminate|]. rewrite SV_step. cbn [step app restOfCase]. cbv zeta. q. cbn [sbind]. q. reflexivity.
  - intros c value later e n ty ts t more f -> HX HT _ [B1 B2] HC _ IH rest. destruct (IH rest) as (d' & ND & IH').
    exists d'. split; [exact ND|]. rewrite SV_step. cbn [step app]. rewrite <- app_assoc. cbn [app].
    rewrite (restOfCase_as e n ty); [|exact HX|exact HT|apply Nat.lt_0_succ]. cbn [sbind]. cbv zeta. rewrite <- app_assoc.
    assert (HD : hd_tok (ts ++ more ++ CloseC :: rest) = OpenC) by (destruct ts as [|[] ts]; try (now destruct HC); reflexivity).
    rewrite look_Q by (rewrite HD; discriminate). rewrite toks_Q, HD.
    change true with (is_some (Some ty)) at 2. rewrite B2; [|discriminate|intros _; destruct n as [| | | | | | | | | | | | | | | |]; try discriminate; exact HT]. cbn [sbind].
    now rewrite IH'.
  - intros c value later ls l cnd ts t more f HL NA HS _ [B1 B2] HC _ IH rest. destruct (IH rest) as (d' & ND & IH').
    exists d'. split; [exact ND|]. rewrite SV_step. cbn [step]. rewrite <- !app_assoc.
    destruct ts as [|[] ts]; try (now destruct HC). cbn [app]. rewrite toks_Q. rewrite (restOfCase_ok _ _ _ _ HL NA); [|lia|discriminate].
    rewrite HS. cbn [sbind]. cbv zeta. q. pose proof (B2 (more ++ CloseC :: rest) DNone cnd ltac:(discriminate) ltac:(congruence)) as B3. cbn [is_some app] in B3. rewrite B3. cbn [sbind]. rewrite IH'.
    assert (CT : cnd <> CTrue). { clear - HS HL. intros ->. destruct l as [|n l]; cbn in HS; [discriminate|]. injection HS.
      assert (K : forall l c, c <> CTrue -> any value c l <> CTrue) by (clear; induction l; cbn; auto; intros; apply IHl; discriminate).
      apply K. destruct value; discriminate. }
    destruct cnd, later; try reflexivity. now elim CT.
  - intros c value ls l ts t HL NA _ [B1 B2] HC rest. exists DLive. split; [discriminate|]. rewrite SV_step. cbn [step]. rewrite <- !app_assoc.
    destruct ts as [|[] ts]; try (now destruct HC). cbn [app]. rewrite toks_Q. rewrite (restOfCase_ok _ _ _ _ HL NA); [|lia|discriminate]. cbn [sbind]. cbv zeta. q.
    pose proof (B2 (CloseC :: rest) DLive CTrue ltac:(discriminate) ltac:(congruence)) as B3. cbn [is_some app] in B3. rewrite B3. cbn [sbind].
    rewrite (SV_step (NextCase _ _ _ _)). cbn [step restOfCase]. cbv zeta. q. cbn [sbind]. q. reflexivity.
  - intros c value ls l ts t HL NA _ [B1 B2] HC rest. exists DLive. split; [discriminate|]. rewrite SV_step. cbn [step]. rewrite <- !app_assoc.
    destruct ts as [|[] ts]; try (now destruct HC). cbn [app]. rewrite toks_Q. rewrite (restOfCase_ok _ _ _ _ HL NA); [|lia|discriminate]. cbn [sbind]. cbv zeta. q.
    pose proof (B2 (CloseC :: rest) DLive CTrue ltac:(discriminate) ltac:(congruence)) as B3. cbn [is_some app] in B3. rewrite B3. cbn [sbind].
    rewrite (SV_step (NextCase _ _ _ _)). cbn [step restOfCase]. cbv zeta. q. cbn [sbind]. q. reflexivity.
Qed.
End Complete.
