(* ExprComplete.v: the parser reads every phrase of the grammar as its tree. *)
From Coq Require Import List PeanoNat NArith Lia Bool.
From Verif Require Import Base ExprModel ExprSpec ExprProofs ExprValue.
Import ListNotations.
Open Scope nat_scope.

Lemma flag_false r : flag false r = r. Proof. now destruct r. Qed.
Lemma bind_got n ts k : bind (Got n ts false) k = k n ts. Proof. apply flag_false. Qed.
Lemma peek_first ts k : first ts <> TErr -> peek ts k = k (first ts) ts.
Proof. destruct ts as [|[] r]; cbn; intro H; try reflexivity. now elim H. Qed.
Lemma first_app a b : a <> [] -> first (a ++ b) = first a. Proof. destruct a; [congruence | reflexivity]. Qed.
Lemma ends_type_app a b : b <> [] -> ends_type (a ++ b) = ends_type b.
Proof.
  intro H. unfold ends_type. f_equal. induction a as [|x a IH]; [reflexivity|].
  cbn [app]. destruct (a ++ b) eqn:E; [apply app_eq_nil in E; now elim H|]. exact IH.
Qed.
Lemma ends_type_snoc a t : ends_type (a ++ [t]) = match t with TType _ => true | _ => false end.
Proof. rewrite ends_type_app by discriminate. reflexivity. Qed.

(* ---- phrases ---- *)
Lemma app_nonnil {A} (a : list A) x b : a ++ x :: b <> []. Proof. now destruct a. Qed.
#[local] Hint Resolve app_nonnil : core.

Lemma G_shape s :
  (forall c ts n, G s c ts n -> ts <> [] /\ null n = false /\ first ts <> TErr) /\
  (forall n ts m, GI s n ts m -> null n = false -> null m = false) /\
  (forall ts m, GA s ts m -> True).
Proof.
  apply G_all; intros; cbn [null] in *; auto;
    repeat match goal with H : _ /\ _ |- _ => destruct H end;
    repeat match goal with |- _ /\ _ => split end; auto; try discriminate; try congruence;
    try (rewrite first_app by assumption; assumption).
  destruct t; cbn in *; congruence.
Qed.
Definition G_ne s c ts n H := proj1 (proj1 (G_shape s) c ts n H).
Definition G_nn s c ts n H := proj1 (proj2 (proj1 (G_shape s) c ts n H)).
Definition G_noerr s c ts n H := proj2 (proj2 (proj1 (G_shape s) c ts n H)).

(* what may follow a phrase *)
Definition stop (t : tok) : Prop := match t with TErr | TDot | TOpenSq | TSquare | TInc | TDec | TIs _ | TOpen => False | _ => True end.
Definition fol (ts rest : list tok) : Prop := stop (first rest) /\ (ends_type ts = true -> first rest <> TBin And).
Definition noop (k : nat) (t : tok) : Prop := match t with TBin o => lvl o <= k | TQuestion | TAssign _ => True | _ => True end.
Definition end_expr (t : tok) : Prop := match t with TBin _ | TQuestion => False | _ => True end.
Definition end_assign (t : tok) : Prop := match t with TBin _ | TQuestion | TAssign _ => False | _ => True end.
Definition may_idx (t : tok) : Prop := match t with TErr | TOpen => False | _ => True end.
Definition may_post (t : tok) : Prop := match t with TErr | TOpen | TOpenSq | TSquare => False | _ => True end.

Lemma stop_err t : stop t -> t <> TErr. Proof. now destruct t. Qed.
Lemma fol_app a t b rest : b <> [] -> fol (a ++ t :: b) rest -> fol b rest.
Proof. intros H [S E]. split; [exact S|]. intro X. apply E. rewrite <- X. change (t :: b) with ([t] ++ b). rewrite app_assoc. now apply ends_type_app. Qed.
Lemma fol_cons t b rest : b <> [] -> fol (t :: b) rest -> fol b rest.
Proof. apply (fol_app []). Qed.
Lemma fol_closed a rest : stop (first rest) -> (first rest <> TBin And) -> fol a rest.
Proof. split; auto. Qed.

(* ---- equations ---- *)
Lemma V_Level k ts n rest : k <= 6 -> V (operand k) ts = Got n rest false -> null n = false -> V (Level k) ts = V (Rest k n) rest.
Proof. intros K H N. rewrite V_step by exact K. cbn [step]. now rewrite H, bind_got, N. Qed.

Lemma is_op_noop k t : noop k t -> is_op (S k) t = None.
Proof. destruct t; cbn; auto. intro H. destruct (Nat.eqb_spec (lvl o) (S k)); [lia | reflexivity]. Qed.

Lemma V_Rest_stop k n rest : S k <= 6 -> first rest <> TErr -> noop k (first rest) -> V (Rest (S k) n) rest = Got n rest false.
Proof.
  intros K E N. rewrite V_step by exact K. cbn [step]. cbn [Nat.eqb andb]. rewrite peek_first by exact E.
  rewrite is_op_noop by exact N. destruct (first rest); try reflexivity. now elim E.
Qed.

Lemma V_Rest0_stop n rest : null n = false -> first rest <> TErr -> end_expr (first rest) -> V (Rest 0 n) rest = Got n rest false.
Proof.
  intros N E X. rewrite V_step by (cbn [task_lvl]; lia). cbn [step]. rewrite N. cbn [andb Nat.eqb]. rewrite peek_first by exact E.
  destruct (first rest); try reflexivity; contradiction.
Qed.

Lemma V_RestFactor_stop n rest : null n = false -> stop (first rest) -> V (RestFactor n) rest = Got n rest false.
Proof.
  intros N S. rewrite V_step by exact I. cbn [step]. rewrite N, peek_first by (now apply stop_err).
  destruct (first rest); try reflexivity; contradiction.
Qed.

Definition no_idx (t : tok) : Prop := match t with TErr | TOpenSq | TSquare => False | _ => True end.
Lemma V_RestLval_stop n rest : null n = false -> no_idx (first rest) -> V (RestLval n) rest = Got n rest false.
Proof.
  intros N S. rewrite V_step by exact I. cbn [step]. rewrite N, peek_first by (destruct (first rest); easy).
  destruct (first rest); try reflexivity; contradiction.
Qed.

Lemma V_Members_stop n d rest : first rest <> TErr -> first rest <> TDot -> V (Members n d) rest = Got n rest false.
Proof.
  intros E D. rewrite V_step by exact I. cbn [step]. rewrite peek_first by exact E.
  destruct (first rest); try reflexivity; contradiction.
Qed.

(* the rest of a factor, when a member has just been read *)
Lemma members_cont m rest : null m = false -> first rest <> TErr ->
  bind (V (Members m false) rest) (fun n ts => V (RestFactor n) ts) = V (RestFactor m) rest.
Proof.
  intros N E. destruct rest as [|t rest].
  - rewrite V_Members_stop by discriminate. apply bind_got.
  - destruct t; try (rewrite V_Members_stop by discriminate; apply bind_got); [|now elim E].
    symmetry. rewrite V_step at 1 by exact I. cbn [step]. rewrite N. reflexivity.
Qed.

(* indices, when an index has just been read *)
Lemma lval_cont m rest : null m = false -> first rest <> TErr ->
  bind (V (RestLval m) rest) (fun n ts => V (RestFactor n) ts) = V (RestFactor m) rest.
Proof.
  intros N E. destruct rest as [|t rest].
  - rewrite V_RestLval_stop by easy. apply bind_got.
  - destruct t; try (rewrite V_RestLval_stop by easy; apply bind_got).
    + symmetry. rewrite V_step at 1 by exact I. cbn [step]. rewrite N. reflexivity.
    + symmetry. rewrite V_step at 1 by exact I. cbn [step]. rewrite N. reflexivity.
Qed.

Lemma V_no_arg f acc rest : V (Args f acc) (TClose :: rest) = Got (NCall f acc) rest false.
Proof.
  assert (F : V (Factor false) (TClose :: rest) = Got NNull (TClose :: rest) false) by (rewrite V_step by exact I; reflexivity).
  assert (L : forall k, k <= 6 -> V (Level (6 - k)) (TClose :: rest) = Got NNull (TClose :: rest) false).
  { induction k as [|k IH]; intro K.
    - rewrite V_step by (cbn [task_lvl]; lia). cbn [step operand Nat.sub Nat.eqb]. now rewrite F.
    - rewrite V_step by (cbn [task_lvl]; lia). cbn [step]. replace (operand (6 - S k)) with (Level (6 - k)).
      + rewrite IH by lia. reflexivity.
      + unfold operand. destruct (Nat.eqb_spec (6 - S k) 6); [lia|]. f_equal. lia. }
  rewrite V_step by exact I. cbn [step].
  assert (A : V Assign (TClose :: rest) = Got NNull (TClose :: rest) false).
  { rewrite V_step by exact I. cbn [step]. change (Level 0) with (Level (6 - 6)). rewrite L by lia. reflexivity. }
  rewrite A. reflexivity.
Qed.

(* ---- the statements ---- *)
Definition P (c : cat) (ts : list tok) (n : node) : Prop :=
  match c with
  | CAssign => forall rest, fol ts rest -> end_assign (first rest) -> V Assign (ts ++ rest) = Got n rest false
  | CExpr => forall rest, fol ts rest -> end_expr (first rest) -> V (Level 0) (ts ++ rest) = Got n rest false
  | CBin k =>
    (k <= 6 -> forall rest, fol ts rest -> noop k (first rest) -> V (Level k) (ts ++ rest) = V (Rest k n) rest) /\
    (k = 7 -> forall rest, fol ts rest -> V (Factor false) (ts ++ rest) = Got n rest false)
  | CFactor => forall lb rest, (lb = true -> ~ starts_local ts) -> fol ts rest -> V (Factor lb) (ts ++ rest) = Got n rest false
  | CPost => forall lb rest, may_post (first rest) -> V (Factor lb) (ts ++ rest) = V (RestFactor n) rest
  | CIdx => forall lb rest, may_idx (first rest) -> V (Factor lb) (ts ++ rest) = V (RestFactor n) rest
  end.
Definition PI (n : node) (ts : list tok) (m : node) : Prop :=
  null n = false -> forall rest, may_post (first rest) -> V (RestLval n) (ts ++ rest) = Got m rest false.
Definition PA (ts : list tok) (m : list node) : Prop :=
  forall f acc rest, V (Args f acc) (ts ++ TClose :: rest) = Got (NCall f (acc ++ m)) rest false.

(* the leading type of a phrase in parentheses *)
Definition PW (c : cat) (ts : list tok) (n : node) : Prop :=
  match c with
  | CBin k => k <= 7 -> starts_type ts ->
    exists f0 n0 s, ts = f0 ++ s /\ (forall rest, fol f0 rest -> V TypeFactor (f0 ++ rest) = Got n0 rest false) /\ null n0 = false /\ is_cast n0 = false /\
      (s = [] /\ f0 = ts \/ (exists o s', s = TBin o :: s' /\ (o = And -> ends_type f0 = false))) /\
      forall rest, fol ts rest -> noop k (first rest) -> V (Wrap 6 n0) (s ++ rest) = V (Wrap (Nat.min k 6) n) rest
  | _ => True
  end.

Lemma operand_P k ts n rest : k <= 6 -> P (CBin (S k)) ts n -> fol ts rest -> noop k (first rest) ->
  V (operand k) (ts ++ rest) = Got n rest false.
Proof.
  intros K [H1 H2] F N. unfold operand. destruct (Nat.eqb_spec k 6).
  - subst. now apply H2.
  - rewrite H1; auto; try lia.
    + apply V_Rest_stop; auto; try lia. destruct F as [S _]. now apply stop_err.
    + destruct (first rest); cbn in *; auto.
Qed.

Lemma lvl_le o : lvl o <= 6. Proof. destruct o; cbn; lia. Qed.
Lemma binds_lvl o : binds o = lvl o. Proof. destruct o; reflexivity. Qed.

Lemma type_cast s c ts n : G s c ts n -> starts_type ts -> is_cast n = false.
Proof.
  induction 1; intro S; try reflexivity; auto; try contradiction.
Qed.

Lemma V_Wrap_up k n rest : S k <= 6 -> first rest <> TErr -> noop k (first rest) -> V (Wrap (S k) n) rest = V (Wrap k n) rest.
Proof.
  intros K E N. rewrite (V_step (Wrap (S k) n)) by exact K. cbn [step Nat.eqb andb]. rewrite peek_first by exact E.
  rewrite is_op_noop by exact N. destruct (first rest); try reflexivity. now elim E.
Qed.

Lemma V_Wrap_op k n o ts r rest : lvl o = k -> (k =? 0) && null n = false -> V (operand k) ts = Got r rest false -> null r = false ->
  V (Wrap k n) (TBin o :: ts) = V (Wrap k (NBin o n r)) rest.
Proof.
  intros K N H R. rewrite V_step by (pose proof (lvl_le o); cbn; lia). cbn [step]. rewrite N. cbn [peek is_op tl].
  rewrite (proj2 (Nat.eqb_eq _ _) K), H, bind_got, R. reflexivity.
Qed.
Lemma V_Rest_op k n o ts r rest : lvl o = k -> (k =? 0) && null n = false -> V (operand k) ts = Got r rest false -> null r = false ->
  V (Rest k n) (TBin o :: ts) = V (Rest k (NBin o n r)) rest.
Proof.
  intros K N H R. rewrite V_step by (pose proof (lvl_le o); cbn; lia). cbn [step]. rewrite N. cbn [peek is_op tl].
  rewrite (proj2 (Nat.eqb_eq _ _) K), H, bind_got, R. reflexivity.
Qed.

Definition PC (c : cat) (ts : list tok) (n : node) : Prop := P c ts n /\ PW c ts n.

Ltac noapp := rewrite <- ?app_assoc; cbn [app]; rewrite <- ?app_assoc; cbn [app].

Lemma factor_unary t u ts n rest lb : unary t = Some u -> V (Factor false) ts = Got n rest false -> null n = false ->
  V (Factor lb) (t :: ts) = Got (NUn u n) rest false.
Proof.
  intros U H N. rewrite V_step by exact I. cbn [step]. rewrite peek_first by (destruct t; cbn in *; congruence).
  cbn [first]. rewrite U. cbn [tl]. now rewrite H, bind_got, N.
Qed.

Lemma complete :
  (forall c ts n, G true c ts n -> PC c ts n) /\
  (forall n ts m, GI true n ts m -> PI n ts m) /\
  (forall ts m, GA true ts m -> PA ts m).
Proof.
  apply G_all; intros; unfold PC in *; cbn [P PW].
  - (* assign *) destruct H0 as [IHl _], H2 as [IHr _]. split; [|exact I]. intros rest F E. cbn [P] in *. noapp.
    rewrite V_step by exact I. cbn [step]. rewrite IHl by (try apply fol_closed; easy). rewrite bind_got.
    rewrite (G_nn _ _ _ _ H). rewrite V_step by exact I. cbn [step]. rewrite (G_nn _ _ _ _ H). cbn [peek tl].
    rewrite IHr by (auto; eapply fol_app; eauto; eapply G_ne; eauto). rewrite bind_got, (G_nn _ _ _ _ H1).
    rewrite V_step by exact I. cbn [step null]. destruct F as [S _]. rewrite peek_first by (now apply stop_err).
    destruct (first rest); try reflexivity; contradiction.
  - (* assign_expr *) destruct H0 as [IH _]. split; [|exact I]. intros rest F E. cbn [P] in *.
    rewrite V_step by exact I. cbn [step]. rewrite IH by (auto; destruct (first rest); easy). rewrite bind_got.
    rewrite (G_nn _ _ _ _ H). rewrite V_step by exact I. cbn [step]. rewrite (G_nn _ _ _ _ H). destruct F as [S _].
    rewrite peek_first by (now apply stop_err). destruct (first rest); try reflexivity; contradiction.
  - (* quest *) destruct H0 as [[IHc _] _], H2 as [IHt _], H4 as [IHf _]. split; [|exact I]. intros rest F E. cbn [P] in *. noapp.
    rewrite IHc by (try lia; try apply fol_closed; easy).
    rewrite V_step by (cbn [task_lvl]; lia). cbn [step]. rewrite (G_nn _ _ _ _ H). cbn [Nat.eqb andb peek is_op tl].
    rewrite V_step by exact I. cbn [step]. rewrite IHt by (try apply fol_closed; easy). rewrite bind_got, (G_nn _ _ _ _ H1).
    cbn [peek tl]. rewrite IHf; auto.
    + now rewrite bind_got, (G_nn _ _ _ _ H3).
    + eapply (fol_app (c ++ TQuestion :: t)); [eapply G_ne; eauto|]. rewrite <- app_assoc. exact F.
  - (* expr *) destruct H0 as [[IH _] _]. split; [|exact I]. intros rest F E. cbn [P] in *. rewrite IH; auto; try lia.
    + apply V_Rest0_stop; auto; [eapply G_nn; eauto | destruct F as [S _]; now apply stop_err].
    + destruct (first rest); easy.
  - (* bin *) rewrite binds_lvl in H. destruct H1 as [[IHl _] Wl], H3 as [IHr _]. pose proof (lvl_le o) as LO.
    assert (NN : (k =? 0) && null ln = false) by (rewrite (G_nn _ _ _ _ H0); apply andb_false_r).
    assert (FL : forall rest, fol l (TBin o :: rest)).
    { intro rest. split; [exact I|]. intros X Y. inversion Y; subst. rewrite H4 in X; auto. discriminate. }
    split; [split|].
    + intros K rest F N. noapp. rewrite IHl; auto; [|cbn; lia].
      apply V_Rest_op; auto; [|eapply G_nn; eauto]. apply operand_P; auto. eapply fol_app; eauto. eapply G_ne; eauto.
    + lia.
    + intros K S. destruct Wl as (f0 & n0 & s & E & TF & N0 & C0 & SH & W); [lia | unfold starts_type in *; rewrite first_app in S; auto; eapply G_ne; eauto|].
      exists f0, n0, (s ++ TBin o :: r). split; [rewrite E; noapp; reflexivity|]. repeat split; auto.
      * right. destruct SH as [[-> ->] | (o' & s' & -> & A)].
        -- exists o, r. split; [reflexivity|]. intro X. now apply H4.
        -- exists o', (s' ++ TBin o :: r). auto.
      * intros rest F N. noapp. rewrite W; auto; [|cbn; lia]. rewrite Nat.min_l by lia.
        apply V_Wrap_op; auto; [|eapply G_nn; eauto]. apply operand_P; auto; try lia. eapply fol_app; eauto. eapply G_ne; eauto.
  - (* up *) destruct H1 as [IH W]. split; [split|].
    + intros K rest F N. apply V_Level; auto; [|eapply G_nn; eauto]. now apply operand_P.
    + lia.
    + intros K S. destruct W as (f0 & n0 & s & E & TF & N0 & C0 & SH & W); [lia | exact S|].
      exists f0, n0, s. repeat split; auto. intros rest F N. rewrite W; auto; [|destruct (first rest); cbn in *; auto].
      destruct (Nat.eq_dec k 6) as [-> | NE]; [reflexivity|]. rewrite !Nat.min_l by lia.
      apply V_Wrap_up; auto; try lia. destruct F as [SF _]. now apply stop_err.
  - (* factor *) destruct H0 as [IH _]. split; [split|].
    + lia.
    + intros _ rest F. apply IH; auto. discriminate.
    + intros _ S. exists ts, n, []. rewrite app_nil_r. repeat split; auto.
      * intros rest F. rewrite <- (IH false rest); auto; [|discriminate]. symmetry. rewrite V_step by exact I. cbn [step].
        pose proof (G_ne _ _ _ _ H) as NE. unfold starts_type in S. rewrite peek_first by (rewrite first_app by exact NE; destruct (first ts); easy).
        rewrite first_app by exact NE. destruct (first ts); try contradiction. reflexivity.
      * eapply G_nn; eauto.
      * eapply type_cast; eauto.
  - (* num *) split; [|exact I]. intros lb rest _ F. rewrite V_step by exact I. reflexivity.
  - (* unary *) destruct H1 as [IH _]. split; [|exact I]. intros lb rest _ F. cbn [app]. apply factor_unary; auto; [|eapply G_nn; eauto].
    apply IH; [discriminate|]. eapply fol_cons; eauto. eapply G_ne; eauto.
  - (* cast *) destruct H0 as [IH _]. split; [|exact I]. intros lb rest _ F. cbn [app].
    rewrite V_step by exact I. cbn [step peek unary tl]. rewrite V_step by exact I. cbn [step peek].
    rewrite V_step by exact I. cbn [step get peek tl]. rewrite IH; [|discriminate|].
    + rewrite (bind_got n), (G_nn _ _ _ _ H). rewrite bind_got. cbn [is_cast]. rewrite bind_got.
      apply V_RestFactor_stop; [reflexivity | apply F].
    + apply fol_cons in F; [|discriminate]. apply fol_cons in F; [|discriminate]. apply fol_cons in F; auto. eapply G_ne; eauto.
  - (* local *) destruct H1 as [IH _]. split; [|exact I]. intros lb rest L F. cbn [app].
    destruct lb; [elim (L eq_refl); reflexivity|].
    rewrite V_step by exact I. cbn [step peek unary tl get]. rewrite IH; auto.
    + now rewrite bind_got, (G_nn _ _ _ _ H0).
    + apply fol_cons in F; [|discriminate]. apply fol_cons in F; auto. eapply G_ne; eauto.
  - (* is *) destruct H0 as [IH _]. split; [|exact I]. intros lb rest L F. noapp. rewrite IH by exact I.
    rewrite V_step by exact I. cbn [step]. rewrite (G_nn _ _ _ _ H). cbn [peek tl].
    destruct F as [S E]. rewrite peek_first by (now apply stop_err).
    assert (A : first rest <> TBin And) by (apply E; change [TIs a; TType ty] with ([TIs a] ++ [TType ty]); rewrite app_assoc; apply ends_type_snoc).
    assert (B : V (RestFactor (NIs a ty n)) rest = Got (NIs a ty n) rest false) by (now apply V_RestFactor_stop).
    destruct (first rest); try exact B; try contradiction. destruct o; try exact B. now elim A.
  - (* post *) destruct H0 as [IH _]. split; [|exact I]. intros lb rest L [S E]. rewrite IH by (destruct (first rest); easy).
    apply V_RestFactor_stop; auto. eapply G_nn; eauto.
  - (* idx *) destruct H0 as [IH _]. split; [|exact I]. intros lb rest M. apply IH. destruct (first rest); easy.
  - (* inc *) destruct H0 as [IH _]. split; [|exact I]. intros lb rest M. noapp. rewrite IH by (destruct b; exact I).
    rewrite V_step by exact I. cbn [step]. rewrite (G_nn _ _ _ _ H). destruct b; reflexivity.
  - (* of *) destruct H0 as [IH _]. split; [|exact I]. intros lb rest M. noapp. rewrite IH by exact I.
    rewrite V_step by exact I. cbn [step]. rewrite (G_nn _ _ _ _ H). cbn [peek].
    rewrite V_step by exact I. cbn [step peek tl]. unfold minMaxSizeof. cbn [peek].
    assert (NE : first rest <> TErr) by (intro X; rewrite X in M; exact M).
    destruct k; cbn [tl null].
    + now apply members_cont.
    + pose proof (members_cont (NOf Constantof n) rest eq_refl NE) as MC. rewrite peek_first by exact NE. destruct (first rest); try exact MC; contradiction.
    + pose proof (members_cont (NOf Instanceof n) rest eq_refl NE) as MC. rewrite peek_first by exact NE. destruct (first rest); try exact MC; contradiction.
    + rewrite (G_nn _ _ _ _ H). now apply members_cont.
  - (* member *) destruct H0 as [IH _]. split; [|exact I]. intros lb rest M. noapp. rewrite IH by exact I.
    rewrite V_step by exact I. cbn [step]. rewrite (G_nn _ _ _ _ H). cbn [peek].
    rewrite V_step by exact I. cbn [step peek tl].
    assert (NE : first rest <> TErr) by (intro X; rewrite X in M; exact M).
    assert (NM : null m = false) by (apply (proj1 (proj2 (G_shape true)) _ _ _ H1); reflexivity).
    assert (A : V (Ident i) (is ++ rest) = Got m rest false).
    { rewrite V_step by exact I. cbn [step]. specialize (H2 eq_refl rest M).
      destruct H1 as [|n0 ts0 i0 more m0 G0 GI0]; [|cbn [app peek]; exact H2].
      cbn [app] in *. rewrite peek_first by exact NE. destruct (first rest); try exact H2; try contradiction; reflexivity. }
    rewrite A, bind_got, NM. now apply members_cont.
  - (* member call *) destruct H0 as [IH _]. split; [|exact I]. intros lb rest M. noapp. rewrite IH by exact I.
    rewrite V_step by exact I. cbn [step]. rewrite (G_nn _ _ _ _ H). cbn [peek].
    rewrite V_step by exact I. cbn [step peek tl]. rewrite (V_step (Ident f)) by exact I. cbn [step peek tl].
    rewrite H2. rewrite (bind_got (NCall f ([] ++ m))). cbn [null]. apply members_cont; [reflexivity|]. intro X; rewrite X in M; exact M.
  - (* ident *) split; [|exact I]. intros lb rest M. cbn [app]. rewrite V_step by exact I. cbn [step peek unary tl].
    assert (NE : first rest <> TErr) by (intro X; rewrite X in M; exact M).
    rewrite V_step by exact I. cbn [step]. rewrite peek_first by exact NE.
    pose proof (lval_cont (NIdent i) rest eq_refl NE) as L.
    destruct (first rest); try exact L; try contradiction. apply bind_got.
  - (* call *) split; [|exact I]. intros lb rest M. noapp. rewrite V_step by exact I. cbn [step peek unary tl].
    rewrite (V_step (Ident f)) by exact I. cbn [step peek tl]. rewrite H0. apply bind_got.
  - (* str *) split; [|exact I]. intros lb rest M. cbn [app]. rewrite V_step by exact I. reflexivity.
  - (* type of *) split; [|exact I]. intros lb rest M. cbn [app]. rewrite V_step by exact I. cbn [step peek unary tl].
    rewrite V_step by exact I. cbn [step get peek tl].
    assert (NE : first rest <> TErr) by (intro X; rewrite X in M; exact M).
    destruct k; try reflexivity.
    + rewrite peek_first by exact NE. destruct (first rest); try reflexivity; contradiction.
    + rewrite peek_first by exact NE. destruct (first rest); try reflexivity; contradiction.
    + now elim H.
  - (* paren *) destruct H0 as [IH _]. split; [|exact I]. intros lb rest M. noapp. rewrite V_step by exact I. cbn [step peek unary tl].
    specialize (H1 eq_refl). unfold starts_plain in H1. pose proof (G_ne _ _ _ _ H) as NE.
    assert (C : V CastOrExpr (ts ++ TClose :: rest) = Got n rest false).
    { rewrite V_step by exact I. cbn [step]. rewrite peek_first by (rewrite first_app by exact NE; eapply G_noerr; eauto).
      cbn [P] in IH. rewrite first_app by exact NE.
      destruct (first ts); try contradiction; (rewrite IH; [rewrite bind_got; reflexivity | apply fol_closed; easy | exact I]). }
    rewrite C. apply bind_got.
  - (* paren type *) destruct H0 as [_ W]. split; [|exact I]. intros lb rest M. noapp. rewrite V_step by exact I. cbn [step peek unary tl].
    pose proof (G_ne _ _ _ _ H) as NE. cbn [PW] in W.
    destruct W as (f0 & n0 & s & E & TF & N0 & C0 & SH & W); [lia | exact H1|].
    assert (C : V CastOrExpr (ts ++ TClose :: rest) = Got n rest false).
    { rewrite V_step by exact I. cbn [step]. rewrite peek_first by (rewrite first_app by exact NE; eapply G_noerr; eauto).
      unfold starts_type in H1. rewrite first_app by exact NE. destruct (first ts); try contradiction. clear H1.
      rewrite E, <- app_assoc. rewrite TF.
      - rewrite bind_got, C0, N0.
        assert (X : V (WrapFactor n0) (s ++ TClose :: rest) = V (Wrap 6 n0) (s ++ TClose :: rest)).
        { rewrite V_step by exact I. cbn [step]. rewrite N0. destruct SH as [[-> _] | (o & s' & -> & _)]; reflexivity. }
        rewrite X, W by (try apply fol_closed; easy). cbn [Nat.min].
        rewrite V_step by (cbn [task_lvl]; lia). cbn [step]. rewrite (G_nn _ _ _ _ H). cbn [Nat.eqb andb peek is_op].
        rewrite V_step by exact I. cbn [step]. rewrite (G_nn _ _ _ _ H). cbn [peek]. rewrite bind_got. reflexivity.
      - destruct SH as [[-> _] | (o & s' & -> & A)]; cbn [app]; [apply fol_closed; easy|].
        split; [exact I|]. intros B D. inversion D; subst. rewrite A in B by reflexivity. discriminate. }
    rewrite C. apply bind_got.
  - (* index *) destruct H0 as [IH _], H2 as [IHi _]. split; [|exact I]. intros lb rest M. noapp. rewrite IH by exact I.
    rewrite V_step by exact I. cbn [step]. rewrite (G_nn _ _ _ _ H). cbn [peek].
    rewrite V_step by exact I. cbn [step]. rewrite (G_nn _ _ _ _ H). cbn [peek tl]. cbn [P] in IHi.
    rewrite IHi by (try apply fol_closed; easy). rewrite bind_got. cbn [peek tl]. apply lval_cont; [reflexivity|].
    intro X; rewrite X in M; exact M.
  - (* no more indices *) intros N rest M. apply V_RestLval_stop; auto; destruct (first rest); easy.
  - (* an index *) destruct H0 as [IHi _]. intros N rest M. noapp. rewrite V_step by exact I. cbn [step]. rewrite N. cbn [peek tl].
    cbn [P] in IHi. rewrite IHi by (try apply fol_closed; easy). rewrite bind_got. cbn [peek tl]. apply H2; auto.
  - (* no argument *) intros f acc rest. cbn [app]. rewrite V_no_arg, app_nil_r. reflexivity.
  - (* one *) destruct H0 as [IH _]. intros f acc rest. cbn [P] in IH. rewrite V_step by exact I. cbn [step].
    rewrite IH by (try apply fol_closed; easy). rewrite bind_got, (G_nn _ _ _ _ H). reflexivity.
  - (* more *) destruct H0 as [IH _]. intros f acc rest. cbn [P] in IH. noapp. rewrite V_step by exact I. cbn [step].
    rewrite IH by (try apply fol_closed; easy). rewrite bind_got, (G_nn _ _ _ _ H). cbn [get peek tl].
    rewrite H2, <- app_assoc. reflexivity.
Qed.
