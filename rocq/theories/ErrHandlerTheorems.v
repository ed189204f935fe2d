(** What the diagnostics handler counts and shows (C36), and when the compiler reports
    failure (C59).  *)
From Coq Require Import String List NArith ZArith Lia Bool.
From Coq Require Import ZifyBool ZifyNat ZifyN.
From Verif Require Import Base ErrHandlerModel.
Import ListNotations.
Open Scope N_scope.

(** ** Specification

    Stated over the sequence of events alone.  *)

(** Is this message an error, when wait messages are held back ([w]) or not?  *)
Definition is_error (w : bool) (m : message) : bool :=
  match m_type m with
  | MSG_ERR => true
  | MSG_WAIT => negb w && m_turn m
  | _ => false
  end.
Definition is_warning (m : message) : bool :=
  match m_type m with MSG_WARN => true | _ => false end.

Definition wait_next (w : bool) (e : event) : bool := match e with EvWait b => b | _ => w end.
Definition wait_after (w : bool) (es : list event) : bool := fold_left wait_next es w.
Definition out_after (o : option N) (es : list event) : option N :=
  fold_left (fun o e => match e with EvOut f => f | _ => o end) es o.

(** The events after the last clearing of the counts.  *)
Fixpoint since_clear (es : list event) : list event :=
  match es with
  | [] => []
  | e :: r => if existsb (fun x => match x with EvClear => true | _ => false end) r
              then since_clear r
              else match e with EvClear => r | _ => es end
  end.

(** Errors and warnings among events, the first one met in mode [w].  *)
Fixpoint errors (w : bool) (es : list event) : N :=
  match es with
  | [] => 0
  | e :: r => (match e with EvMsg m => if is_error w m then 1 else 0 | _ => 0 end)
              + errors (wait_next w e) r
  end.
Fixpoint warnings (es : list event) : N :=
  match es with
  | [] => 0
  | e :: r => (match e with EvMsg m => if is_warning m then 1 else 0 | _ => 0 end) + warnings r
  end.
Fixpoint failures (es : list event) : N :=
  match es with
  | [] => 0
  | e :: r => (match e with EvFail => 1 | _ => 0 end) + failures r
  end.

(** The label under which a message is shown to the user, if it is.  *)
Definition shown_as (info note warn w : bool) (m : message) : option text :=
  match m_type m with
  | MSG_ERR => Some (txt "ERROR")
  | MSG_WARN => if warn then Some (txt "Warning") else None
  | MSG_INFO => if info then Some (txt "Info") else None
  | MSG_NOTE => if note then Some (txt "NOTE") else None
  | MSG_DEBUG => None
  | MSG_WAIT => if negb w && m_turn m then Some (txt "ERROR") else None
  end.

Definition line_of (m : message) (label : text) : text :=
  m_loc m ++ txt " " ++ label ++ txt ": " ++ m_text m ++ txt "." ++ [10].

(** Every line meant for the user, with the output in force then, repetitions included.  *)
Fixpoint shown (info note warn w : bool) (o : option N) (es : list event) : list (N * text) :=
  match es with
  | [] => []
  | e :: r =>
    (match e, o with
     | EvMsg m, Some f =>
       match shown_as info note warn w m with Some l => [(f, line_of m l)] | None => [] end
     | _, _ => []
     end)
    ++ shown info note warn (wait_next w e)
             (match e with EvOut f => f | _ => o end) r
  end.

(** The same with only the first of equal lines.  *)
Fixpoint keep_first (l : list (N * text)) : list (N * text) :=
  match l with
  | [] => []
  | x :: r => x :: filter (fun y => negb (text_eqb (snd x) (snd y))) (keep_first r)
  end.

(** ** Lemmas about the specification *)

Lemma wait_after_app : forall a b w, wait_after w (a ++ b) = wait_after (wait_after w a) b.
Proof. intros. unfold wait_after. apply fold_left_app. Qed.
Lemma out_after_app : forall a b o, out_after o (a ++ b) = out_after (out_after o a) b.
Proof. intros. unfold out_after. apply fold_left_app. Qed.

Lemma errors_app : forall a b w, errors w (a ++ b) = errors w a + errors (wait_after w a) b.
Proof.
  induction a as [|e a IH]; intros b w; [reflexivity|].
  cbn [app errors]. rewrite IH. unfold wait_after. cbn [fold_left]. lia.
Qed.
Lemma warnings_app : forall a b, warnings (a ++ b) = warnings a + warnings b.
Proof. induction a as [|e a IH]; intros b; [reflexivity|]. cbn [app warnings]. rewrite IH. lia. Qed.
Lemma failures_app : forall a b, failures (a ++ b) = failures a + failures b.
Proof. induction a as [|e a IH]; intros b; [reflexivity|]. cbn [app failures]. rewrite IH. lia. Qed.

Lemma shown_app : forall i n wn a b w o,
  shown i n wn w o (a ++ b)
  = shown i n wn w o a ++ shown i n wn (wait_after w a) (out_after o a) b.
Proof.
  intros i n wn. induction a as [|e a IH]; intros b w o; [reflexivity|].
  cbn [app shown]. rewrite IH. rewrite <- app_assoc. reflexivity.
Qed.

Lemma text_eqb_sym : forall a b, text_eqb a b = text_eqb b a.
Proof.
  intros a b. destruct (text_eqb a b) eqn:E.
  - apply text_eqb_eq in E. subst. symmetry. apply text_eqb_refl.
  - destruct (text_eqb b a) eqn:E2; [|reflexivity].
    apply text_eqb_eq in E2. subst. rewrite text_eqb_refl in E. discriminate.
Qed.

Lemma seen_In : forall t l, seen t l = true <-> In t l.
Proof.
  intros t l. unfold seen. rewrite existsb_exists. split.
  - intros (x & Hi & He). apply text_eqb_eq in He. subst. exact Hi.
  - intros H. exists t. split; [exact H|apply text_eqb_refl].
Qed.

Lemma keep_first_snoc : forall l x,
  keep_first (l ++ [x])
  = keep_first l ++ (if seen (snd x) (map snd l) then [] else [x]).
Proof.
  induction l as [|y l IH]; intros x; [reflexivity|].
  cbn [app keep_first]. rewrite IH, filter_app. cbn [app]. f_equal. f_equal.
  unfold seen. cbn [map existsb].
  destruct (existsb (text_eqb (snd x)) (map snd l)).
  - rewrite orb_true_r. reflexivity.
  - rewrite orb_false_r. cbn [filter]. rewrite (text_eqb_sym (snd x)).
    destruct (text_eqb (snd y) (snd x)); reflexivity.
Qed.

Lemma keep_first_In : forall l t, In t (map snd (keep_first l)) <-> In t (map snd l).
Proof.
  induction l as [|x l IH]; intros t; [tauto|].
  cbn [keep_first map]. cbn [In]. rewrite <- (IH t). split.
  - intros [H|H]; [left; exact H|].
    right. apply in_map_iff in H. destruct H as (y & Hy & Hf). apply filter_In in Hf.
    apply in_map_iff. exists y. split; [exact Hy|apply Hf].
  - intros [H|H]; [left; exact H|].
    destruct (text_eqb (snd x) t) eqn:E.
    + left. apply text_eqb_eq in E. exact E.
    + right. apply in_map_iff in H. destruct H as (y & Hy & Hf).
      apply in_map_iff. exists y. split; [exact Hy|]. apply filter_In. split; [exact Hf|].
      rewrite Hy, E. reflexivity.
Qed.

Lemma keep_first_NoDup : forall l, NoDup (map snd (keep_first l)).
Proof.
  induction l as [|x l IH]; [constructor|].
  cbn [keep_first map]. constructor.
  - intros H. apply in_map_iff in H. destruct H as (y & Hy & Hf).
    apply filter_In in Hf. destruct Hf as [_ Hf]. rewrite Hy, text_eqb_refl in Hf. discriminate.
  - revert IH. generalize (keep_first l). induction l0 as [|z l0 IH0]; intros Hn; [constructor|].
    cbn [filter]. inversion Hn; subst.
    destruct (negb (text_eqb (snd x) (snd z))); [|apply IH0; assumption].
    cbn [map]. constructor; [|apply IH0; assumption].
    intros Hi. apply H1. apply in_map_iff in Hi. destruct Hi as (y & Hy & Hf).
    apply filter_In in Hf. apply in_map_iff. exists y. tauto.
Qed.

(** errors counted since the last clearing, in one pass *)
Definition tally_next (s : bool * N) (e : event) : bool * N :=
  (wait_next (fst s) e,
   match e with
   | EvMsg m => if is_error (fst s) m then snd s + 1 else snd s
   | EvClear => 0
   | _ => snd s
   end).

Lemma since_clear_snoc : forall es e,
  since_clear (es ++ [e]) = match e with EvClear => [] | _ => since_clear es ++ [e] end.
Proof.
  induction es as [|x es IH]; intros e; [destruct e; reflexivity|].
  cbn [app since_clear]. rewrite existsb_app. cbn [existsb]. rewrite IH.
  destruct (existsb (fun y => match y with EvClear => true | _ => false end) es) eqn:E.
  - cbn [orb]. destruct e; reflexivity.
  - cbn [orb]. destruct e; cbn [orb]; try (destruct x; reflexivity); reflexivity.
Qed.

(** the mode in which the first event since the last clearing is met *)
Fixpoint wait_at_clear (w : bool) (es : list event) : bool :=
  match es with
  | [] => w
  | e :: r => if existsb (fun x => match x with EvClear => true | _ => false end) (e :: r)
              then wait_at_clear (wait_next w e) r else w
  end.

Lemma wait_at_clear_snoc : forall es w e,
  wait_at_clear w (es ++ [e])
  = match e with EvClear => wait_after w es | _ => wait_at_clear w es end.
Proof.
  induction es as [|x es IH]; intros w e; [destruct e; reflexivity|].
  cbn [app wait_at_clear]. cbn [existsb]. rewrite existsb_app. cbn [existsb].
  rewrite IH. unfold wait_after. cbn [fold_left].
  destruct e; try rewrite !orb_false_r; try reflexivity.
  rewrite !orb_true_r. reflexivity.
Qed.

Lemma wait_split : forall es w,
  wait_after w es = wait_after (wait_at_clear w es) (since_clear es).
Proof.
  intros es. induction es as [|e es IH] using rev_ind; intros w; [reflexivity|].
  rewrite wait_at_clear_snoc, since_clear_snoc, !wait_after_app.
  destruct e; try (rewrite wait_after_app, <- IH; reflexivity).
  reflexivity.
Qed.

Lemma tally_errors : forall es w,
  fold_left tally_next es (w, 0)
  = (wait_after w es, errors (wait_at_clear w es) (since_clear es)).
Proof.
  intros es w. induction es as [|e es IH] using rev_ind; [reflexivity|].
  rewrite fold_left_app, IH. cbn [fold_left]. unfold tally_next. cbn [fst snd].
  rewrite wait_after_app, since_clear_snoc, wait_at_clear_snoc.
  f_equal.
  destruct e; try (rewrite errors_app; cbn [errors]; lia); try reflexivity.
  rewrite errors_app. cbn [errors]. rewrite <- wait_split.
  destruct (is_error (wait_after w es) m); lia.
Qed.

(** ** The handler follows the specification *)

Lemma u32_add1 : forall n, u32 (u32 n + 1) = u32 (n + 1).
Proof. intros n. unfold u32, two32. rewrite N.add_mod_idemp_l; [reflexivity|discriminate]. Qed.

Section Handler.
Variables (info note warn wait : bool) (out : option N).
Let h0 := handler0 info note warn wait out.

Lemma run_app : forall a b h, run (a ++ b) h = run b (run a h).
Proof. intros. unfold run. apply fold_left_app. Qed.

Lemma handler_state : forall es,
  let h := run es h0 in
  h_info h = info /\ h_note h = note /\ h_warn h = warn
  /\ h_wait h = wait_after wait es
  /\ h_out h = out_after out es
  /\ h_nerr h = u32 (errors (wait_at_clear wait es) (since_clear es))
  /\ h_nwarn h = u32 (warnings (since_clear es))
  /\ (forall t, In t (h_seen h) <-> In t (map snd (h_written h)))
  /\ h_written h = keep_first (shown info note warn wait out es)
  /\ h_log h = es.
Proof.
  intros es. induction es as [|e es IH] using rev_ind.
  - cbn. repeat split; auto.
  - cbn zeta in *. rewrite run_app. set (h := run es h0) in *.
    destruct IH as (Hi & Hn & Hw & Hwt & Ho & He & Hwn & Hs & Hwr & Hl).
    change (run [e] h) with (step h e).
    rewrite wait_after_app, out_after_app, since_clear_snoc, wait_at_clear_snoc, shown_app.
    unfold wait_after at 1. unfold out_after at 1. cbn [fold_left].
    destruct e as [m|f|b| |].
    2-5: cbn [wait_next shown]; rewrite !app_nil_r; unfold step;
         cbn [h_info h_note h_warn h_wait h_out h_nerr h_nwarn h_seen h_written h_log];
         repeat (split; [first [assumption | reflexivity
           | rewrite ?errors_app, ?warnings_app; cbn [errors warnings]; rewrite ?N.add_0_r; assumption]|]);
         rewrite Hl; reflexivity.
    rewrite errors_app, warnings_app. cbn [errors warnings shown wait_next].
    rewrite <- wait_split, <- Hwt, <- Ho, app_nil_r.
    (* what the user sees *)
    assert (Hshow : forall label h1, h_out h1 = h_out h -> h_written h1 = h_written h ->
      h_seen h1 = h_seen h ->
      h_written (output_user (m_loc m) (m_text m) label h1)
        = keep_first (shown info note warn wait out es ++
             match h_out h with Some f => [(f, line_of m label)] | None => [] end)
      /\ (forall t, In t (h_seen (output_user (m_loc m) (m_text m) label h1)) <->
                    In t (map snd (h_written (output_user (m_loc m) (m_text m) label h1))))).
    { intros label h1 E1 E2 E3. unfold output_user. rewrite E1, E3.
      destruct (h_out h) as [f|].
      - rewrite keep_first_snoc. cbn [snd].
        assert (Hb : seen (line_of m label) (map snd (shown info note warn wait out es))
                     = seen (user_text (m_loc m) label (m_text m)) (h_seen h)).
        { apply eq_iff_eq_true. rewrite !seen_In, Hs, Hwr, keep_first_In. reflexivity. }
        rewrite Hb.
        destruct (seen (user_text (m_loc m) label (m_text m)) (h_seen h)).
        + rewrite app_nil_r, E2, E3. split; [exact Hwr|exact Hs].
        + cbn [h_written h_seen]. rewrite E2. split; [rewrite Hwr; reflexivity|].
          intros t. rewrite map_app, in_app_iff. cbn [map snd In]. rewrite Hs. tauto.
      - rewrite app_nil_r, E2, E3. split; [exact Hwr|exact Hs]. }
    assert (Hkeep : forall label h1,
      h_info (output_user (m_loc m) (m_text m) label h1) = h_info h1 /\
      h_note (output_user (m_loc m) (m_text m) label h1) = h_note h1 /\
      h_warn (output_user (m_loc m) (m_text m) label h1) = h_warn h1 /\
      h_wait (output_user (m_loc m) (m_text m) label h1) = h_wait h1 /\
      h_out (output_user (m_loc m) (m_text m) label h1) = h_out h1 /\
      h_nerr (output_user (m_loc m) (m_text m) label h1) = h_nerr h1 /\
      h_nwarn (output_user (m_loc m) (m_text m) label h1) = h_nwarn h1 /\
      h_log (output_user (m_loc m) (m_text m) label h1) = h_log h1).
    { intros label h1. unfold output_user.
      destruct (h_out h1) eqn:Eo; [destruct (seen _ _)|];
        cbn [h_info h_note h_warn h_wait h_out h_nerr h_nwarn h_log]; rewrite ?Eo; tauto. }
    assert (Hnil : keep_first (shown info note warn wait out es ++
        match h_out h with Some _ => [] | None => [] end) = h_written h).
    { destruct (h_out h); rewrite app_nil_r; symmetry; exact Hwr. }
    unfold step, build, is_error, is_warning, shown_as.
    rewrite Hi, Hn, Hw.
    pose proof (Hshow (txt "ERROR") h eq_refl eq_refl eq_refl) as Se.
    pose proof (Hshow (txt "Warning") h eq_refl eq_refl eq_refl) as Sw.
    pose proof (Hshow (txt "Info") h eq_refl eq_refl eq_refl) as Si.
    pose proof (Hshow (txt "NOTE") h eq_refl eq_refl eq_refl) as Sn.
    pose proof (Hkeep (txt "ERROR") h) as Ke.
    pose proof (Hkeep (txt "Warning") h) as Kw.
    pose proof (Hkeep (txt "Info") h) as Ki.
    pose proof (Hkeep (txt "NOTE") h) as Kn.
    destruct Ke as (Ke1 & Ke2 & Ke3 & Ke4 & Ke5 & Ke6 & Ke7 & Ke8).
    destruct Kw as (Kw1 & Kw2 & Kw3 & Kw4 & Kw5 & Kw6 & Kw7 & Kw8).
    destruct Ki as (Ki1 & Ki2 & Ki3 & Ki4 & Ki5 & Ki6 & Ki7 & Ki8).
    destruct Kn as (Kn1 & Kn2 & Kn3 & Kn4 & Kn5 & Kn6 & Kn7 & Kn8).
    assert (Hinc : forall n, u32 n = n mod two32) by reflexivity.
    destruct (m_type m); [ | destruct warn | destruct info | destruct note | | destruct (h_wait h) eqn:Ew; [|destruct (m_turn m)]];
      cbn [negb andb];
      unfold inc_err, inc_warn;
      cbn [h_info h_note h_warn h_wait h_out h_nerr h_nwarn h_seen h_written h_log];
      rewrite ?Ke1, ?Ke2, ?Ke3, ?Ke4, ?Ke5, ?Ke6, ?Ke7, ?Ke8, ?Kw1, ?Kw2, ?Kw3, ?Kw4, ?Kw5,
        ?Kw6, ?Kw7, ?Kw8, ?Ki1, ?Ki2, ?Ki3, ?Ki4, ?Ki5, ?Ki6, ?Ki7, ?Ki8, ?Kn1, ?Kn2, ?Kn3, ?Kn4,
        ?Kn5, ?Kn6, ?Kn7, ?Kn8, ?N.add_0_r, ?Hi, ?Hn, ?Hw, ?He, ?Hwn, ?Hl, ?u32_add1.
    all: repeat (split; [first [reflexivity | assumption]|]).
    all: try (split; [apply Se|split; [apply Se|reflexivity]]).
    all: try (split; [apply Sw|split; [apply Sw|reflexivity]]).
    all: try (split; [apply Si|split; [apply Si|reflexivity]]).
    all: try (split; [apply Sn|split; [apply Sn|reflexivity]]).
    all: split; [rewrite Hnil; reflexivity|reflexivity].
Qed.
End Handler.

(** ** C36 *)

Lemma u32_small : forall n, n < two32 -> u32 n = n.
Proof. intros n H. unfold u32. apply N.mod_small. exact H. Qed.

Lemma since_clear_is : forall w pre post,
  (pre = [] \/ exists p, pre = p ++ [EvClear]) -> ~ In EvClear post ->
  since_clear (pre ++ post) = post /\ wait_at_clear w (pre ++ post) = wait_after w pre.
Proof.
  intros w pre post Hp. induction post as [|e post IH] using rev_ind; intros Hn.
  - rewrite app_nil_r. destruct Hp as [->|(p & ->)]; [split; reflexivity|].
    rewrite since_clear_snoc, wait_at_clear_snoc, wait_after_app. split; reflexivity.
  - rewrite app_assoc, since_clear_snoc, wait_at_clear_snoc.
    destruct IH as (H1 & H2). { intros Hi. apply Hn. apply in_app_iff. left. exact Hi. }
    rewrite H1, H2. destruct e; try (split; reflexivity).
    exfalso. apply Hn. apply in_app_iff. right. left. reflexivity.
Qed.

(** The counters tell how many errors and warnings were reported since they were last
    cleared (or since the start), whether or not the messages were shown, as long as there
    were fewer than 2^32; a wait message counts as an error exactly when waiting is off and
    it concerns a class that must be complete.  *)
Theorem C36_counts : forall info note warn wait out pre post,
  (pre = [] \/ exists p, pre = p ++ [EvClear]) -> ~ In EvClear post ->
  errors (wait_after wait pre) post < two32 ->
  warnings post < two32 ->
  let h := run (pre ++ post) (handler0 info note warn wait out) in
  h_nerr h = errors (wait_after wait pre) post /\ h_nwarn h = warnings post.
Proof.
  intros info note warn wait out pre post Hp Hn H1 H2 h. unfold h.
  destruct (handler_state info note warn wait out (pre ++ post))
    as (_ & _ & _ & _ & _ & He & Hw & _ & _ & _).
  destruct (since_clear_is wait pre post Hp Hn) as (E1 & E2).
  rewrite He, Hw, E1, E2, !u32_small by assumption. split; reflexivity.
Qed.
Print Assumptions C36_counts.

(** What is written to the outputs is the sequence of the lines meant for the user, each
    written when it first comes up, to the output then in force, and never again.  *)
Theorem C36_written : forall info note warn wait out es,
  let h := run es (handler0 info note warn wait out) in
  h_written h = keep_first (shown info note warn wait out es).
Proof.
  intros info note warn wait out es h. unfold h.
  destruct (handler_state info note warn wait out es)
    as (_ & _ & _ & _ & _ & _ & _ & _ & H & _).
  exact H.
Qed.
Print Assumptions C36_written.

Lemma shown_In : forall i n wn es w o f t,
  In (f, t) (shown i n wn w o es) <->
  exists es1 m es2 l, es = es1 ++ EvMsg m :: es2
    /\ out_after o es1 = Some f
    /\ shown_as i n wn (wait_after w es1) m = Some l
    /\ t = line_of m l.
Proof.
  intros i n wn. induction es as [|e es IH]; intros w o f t.
  - cbn. split; [tauto|]. intros (es1 & m & es2 & l & H & _).
    destruct es1; discriminate.
  - cbn [shown]. rewrite in_app_iff, IH. split.
    + intros [H|H].
      * destruct e as [m| | | |]; try contradiction.
        destruct o as [g|]; [|contradiction].
        destruct (shown_as i n wn w m) as [l|] eqn:El; [|contradiction].
        destruct H as [H|[]]. injection H as <- <-.
        exists [], m, es, l. repeat split. exact El.
      * destruct H as (es1 & m & es2 & l & -> & Ho & Hl & Ht).
        exists (e :: es1), m, es2, l. repeat split; assumption.
    + intros (es1 & m & es2 & l & He & Ho & Hl & Ht).
      destruct es1 as [|e1 es1].
      * injection He as -> ->. left. cbn in Ho, Hl. rewrite Ho, Hl. left. subst. reflexivity.
      * injection He as -> ->. right. exists es1, m, es2, l. repeat split; assumption.
Qed.

(** So no line is written twice, and a line is written if and only if some message that the
    user's settings show has that line and came up while an output was set.  *)
Theorem C36_once : forall info note warn wait out es,
  let h := run es (handler0 info note warn wait out) in
  NoDup (map snd (h_written h))
  /\ forall t, In t (map snd (h_written h)) <->
       exists es1 m es2 l f, es = es1 ++ EvMsg m :: es2
         /\ out_after out es1 = Some f
         /\ shown_as info note warn (wait_after wait es1) m = Some l
         /\ t = line_of m l.
Proof.
  intros info note warn wait out es h.
  assert (Hw : h_written h = keep_first (shown info note warn wait out es)).
  { apply C36_written. }
  rewrite Hw. split; [apply keep_first_NoDup|].
  intros t. rewrite keep_first_In, in_map_iff. split.
  - intros ([f t'] & Ht & Hi). cbn in Ht. subst t'. apply shown_In in Hi.
    destruct Hi as (es1 & m & es2 & l & H). exists es1, m, es2, l, f. exact H.
  - intros (es1 & m & es2 & l & f & H). exists (f, t). split; [reflexivity|].
    apply shown_In. exists es1, m, es2, l. exact H.
Qed.
Print Assumptions C36_once.

Lemma errors_occurs : forall es w, errors w es <> 0 ->
  exists es1 m es2, es = es1 ++ EvMsg m :: es2 /\ is_error (wait_after w es1) m = true.
Proof.
  induction es as [|e es IH]; intros w H; [exfalso; apply H; reflexivity|].
  cbn [errors] in H.
  destruct (errors (wait_next w e) es =? 0) eqn:E.
  - apply N.eqb_eq in E. rewrite E in H. destruct e as [m| | | |]; try (exfalso; apply H; reflexivity).
    destruct (is_error w m) eqn:Em; [|exfalso; apply H; reflexivity].
    exists [], m, es. split; [reflexivity|exact Em].
  - apply N.eqb_neq in E. destruct (IH _ E) as (es1 & m & es2 & -> & Hm).
    exists (e :: es1), m, es2. split; [reflexivity|exact Hm].
Qed.

Lemma since_clear_split : forall es w, exists pre,
  es = pre ++ since_clear es /\ wait_after w pre = wait_at_clear w es.
Proof.
  intros es w. induction es as [|e es IH] using rev_ind; [exists []; split; reflexivity|].
  destruct IH as (pre & He & Hw). rewrite since_clear_snoc, wait_at_clear_snoc.
  destruct e; try (exists pre; split; [rewrite He at 1; rewrite <- app_assoc; reflexivity|exact Hw]).
  exists (es ++ [EvClear]). split; [rewrite app_nil_r; reflexivity|].
  rewrite wait_after_app. reflexivity.
Qed.

(** A nonzero error count has a line labelled ERROR behind it, if an output was set all
    along: errors are never counted silently.  *)
Theorem C36_error_shown : forall info note warn wait out es,
  let h := run es (handler0 info note warn wait out) in
  (forall es1 es2, es = es1 ++ es2 -> out_after out es1 <> None) ->
  h_nerr h <> 0 ->
  exists m f, In (EvMsg m) es /\ In (f, line_of m (txt "ERROR")) (h_written h).
Proof.
  intros info note warn wait out es h Hout Hne.
  destruct (handler_state info note warn wait out es)
    as (_ & _ & _ & _ & _ & He & _ & _ & _ & _).
  fold h in He.
  assert (Hn : errors (wait_at_clear wait es) (since_clear es) <> 0).
  { intros E. rewrite E in He. apply Hne. rewrite He. reflexivity. }
  apply errors_occurs in Hn. destruct Hn as (es1 & m & es2 & Es & Hm).
  destruct (since_clear_split es wait) as (pre & Hp & Hw).
  rewrite <- Hw, <- wait_after_app in Hm. rewrite Es, app_assoc in Hp.
  assert (Hi : In (line_of m (txt "ERROR")) (map snd (h_written h))).
  { apply (proj2 (C36_once info note warn wait out es)).
    destruct (out_after out (pre ++ es1)) as [f|] eqn:Eo;
      [|exfalso; exact (Hout _ _ Hp Eo)].
    exists (pre ++ es1), m, es2, (txt "ERROR"), f. repeat split; try assumption.
    unfold is_error in Hm. unfold shown_as. destruct (m_type m); try discriminate; [reflexivity|].
    rewrite Hm. reflexivity. }
  apply in_map_iff in Hi. destruct Hi as ([f t] & Ht & Hi). cbn in Ht. subst t.
  exists m, f. split; [|exact Hi].
  rewrite Hp. apply in_app_iff. right. left. reflexivity.
Qed.
Print Assumptions C36_error_shown.

Example C36_ex :
  let err := EvMsg (err_msg (txt "A.ulam:1:2:") (txt "Bad")) in
  let wt := EvMsg (Msg (txt "A.ulam:9:1:") (txt "Incomplete") MSG_WAIT true) in
  let wn := EvMsg (Msg (txt "A.ulam:3:1:") (txt "Odd") MSG_WARN false) in
  let h := run [EvOut (Some 2); err; EvClear; wt; err; wn; EvWait false; wt; err]
               (handler0 false false true true None) in
  (h_nerr h, h_nwarn h) = (3, 1)
  /\ List.length (h_written h) = 3%nat
  /\ nth 0 (map snd (h_written h)) [] = txt "A.ulam:1:2: ERROR: Bad." ++ [10].
Proof. vm_compute. repeat split. Qed.
