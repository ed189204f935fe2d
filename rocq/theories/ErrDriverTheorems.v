(** When compileFiles reports failure (C59).  *)
From Coq Require Import String List NArith ZArith Lia Bool.
From Coq Require Import ZifyBool ZifyNat ZifyN.
From Verif Require Import Base ErrHandlerModel ErrHandlerTheorems.
Import ListNotations.
Open Scope N_scope.

(** All the errors of a compilation: the messages that are errors, and the files that could
    not be opened.  *)
Definition problems (wait : bool) (es : list event) : N := errors wait es + failures es.

Section Driver.
Variables (info note warn wait : bool) (out : option N).
Let h0 := handler0 info note warn wait out.

Definition M (h : handler) : N := errors wait (h_log h).
Definition F (h : handler) : N := failures (h_log h).

(** [h] is what the logged events made of the initial handler, and clearing the counts has
    not lost an error.  *)
Definition kept (h : handler) : Prop :=
  h = run (h_log h) h0
  /\ errors (wait_at_clear wait (h_log h)) (since_clear (h_log h)) = M h.

Definition ext (h h' : handler) : Prop := exists es, h' = run es h.

Lemma ext_refl : forall h, ext h h.
Proof. intros h. exists []. reflexivity. Qed.
Lemma ext_trans : forall a b c, ext a b -> ext b c -> ext a c.
Proof. intros a b c (x & ->) (y & ->). exists (x ++ y). symmetry. apply run_app. Qed.
Lemma ext_run : forall es h, ext h (run es h).
Proof. intros es h. exists es. reflexivity. Qed.
Lemma ext_report : forall es h, ext h (report es h).
Proof. intros es h. exists (map EvMsg es). reflexivity. Qed.

Lemma step_log : forall h e, h_log (step h e) = h_log h ++ [e].
Proof.
  intros h e. unfold step. cbn [h_log]. f_equal.
  destruct e as [m| | | |]; try reflexivity.
  unfold build, inc_err, inc_warn, output_user.
  destruct (m_type m); repeat (match goal with |- context [if ?b then _ else _] => destruct b
    | |- context [match ?o with Some _ => _ | None => _ end] => destruct o end);
    try reflexivity; cbn [h_log]; try reflexivity;
    repeat (match goal with |- context [if ?b then _ else _] => destruct b
    | |- context [match ?o with Some _ => _ | None => _ end] => destruct o end); reflexivity.
Qed.

Lemma run_log : forall es h, h_log (run es h) = h_log h ++ es.
Proof.
  induction es as [|e es IH]; intros h; [symmetry; apply app_nil_r|].
  cbn [run fold_left] in *. unfold run in IH. rewrite IH, step_log, <- app_assoc. reflexivity.
Qed.

Lemma ext_M : forall a b, ext a b -> M a <= M b.
Proof. intros a b (es & ->). unfold M. rewrite run_log, errors_app. lia. Qed.
Lemma ext_F : forall a b, ext a b -> F a <= F b.
Proof. intros a b (es & ->). unfold F. rewrite run_log, failures_app. lia. Qed.

Lemma kept_count : forall h, kept h -> h_nerr h = u32 (M h).
Proof.
  intros h (Hr & Hk). rewrite Hr at 1.
  destruct (handler_state info note warn wait out (h_log h))
    as (_ & _ & _ & _ & _ & He & _ & _ & _ & _).
  fold h0 in He. rewrite He, Hk. reflexivity.
Qed.

Lemma kept0 : kept h0.
Proof. split; reflexivity. Qed.

Lemma kept_step : forall h e, kept h -> (e = EvClear -> M h = 0) -> kept (step h e).
Proof.
  intros h e (Hr & Hk) Hc. split.
  - rewrite step_log, run_app, <- Hr. reflexivity.
  - unfold M in *. rewrite step_log, since_clear_snoc, wait_at_clear_snoc, errors_app.
    destruct e; try (rewrite errors_app, Hk, <- wait_split; reflexivity).
    rewrite Hc by reflexivity. reflexivity.
Qed.

Lemma kept_run : forall es h, kept h -> ~ In EvClear es -> kept (run es h).
Proof.
  induction es as [|e es IH]; intros h Hk Hn; [exact Hk|].
  apply (IH (step h e)); [|intros Hi; apply Hn; right; exact Hi].
  apply kept_step; [exact Hk|]. intros ->. exfalso. apply Hn. left. reflexivity.
Qed.

Lemma kept_report : forall ms h, kept h -> kept (report ms h).
Proof.
  intros ms h Hk. apply kept_run; [exact Hk|]. intros Hi. apply in_map_iff in Hi.
  destruct Hi as (m & Hm & _). discriminate.
Qed.

Lemma F_report : forall ms h, F (report ms h) = F h.
Proof.
  intros ms h. unfold F, report. rewrite run_log, failures_app.
  assert (H : failures (map EvMsg ms) = 0); [|lia].
  induction ms as [|m ms IH]; [reflexivity|]. cbn [map failures]. lia.
Qed.

Lemma F_run : forall es h, ~ In EvFail es -> F (run es h) = F h.
Proof.
  intros es h Hn. unfold F. rewrite run_log, failures_app.
  assert (H : failures es = 0); [|lia].
  revert Hn. induction es as [|e es IH]; intros Hn; [reflexivity|].
  cbn [failures]. rewrite IH by (intros Hi; apply Hn; right; exact Hi).
  destruct e; try reflexivity. exfalso. apply Hn. left. reflexivity.
Qed.

Lemma M_err : forall loc t h, M (report [err_msg loc t] h) = M h + 1.
Proof.
  intros loc t h. unfold M, report. rewrite run_log, errors_app. cbn. reflexivity.
Qed.

Lemma M_quiet : forall es h, (forall m, ~ In (EvMsg m) es) -> M (run es h) = M h.
Proof.
  intros es h Hn. unfold M. rewrite run_log, errors_app.
  assert (H : forall w, errors w es = 0); [|rewrite H; lia].
  revert Hn. induction es as [|e es IH]; intros Hn w; [reflexivity|].
  cbn [errors]. rewrite IH by (intros m Hi; apply (Hn m); right; exact Hi).
  destruct e; try reflexivity. exfalso. apply (Hn m). left. reflexivity.
Qed.

Lemma kept_wait : forall b h, kept h -> kept (run [EvWait b] h).
Proof.
  intros b h Hk. apply kept_run; [exact Hk|]. intros [Hx|[]]. discriminate.
Qed.

(** count is exact while the total is below 2^32 *)
Lemma count_exact : forall h h', kept h -> ext h h' -> M h' < two32 -> h_nerr h = M h.
Proof.
  intros h h' Hk He Hb. rewrite (kept_count h Hk). apply u32_small.
  apply ext_M in He. lia.
Qed.

(** *** the phases of labeling *)

Lemma resolve_ext : forall fuel its n h, ext h (snd (resolve fuel its n h)).
Proof.
  induction fuel as [|g IH]; intros its n h; [apply ext_refl|].
  cbn [resolve].
  set (h1 := report (fst (its n)) (run [EvClear] h)).
  assert (He : ext h h1).
  { eapply ext_trans; [apply ext_run|apply ext_report]. }
  destruct ((MAX_ITERATIONS <? S n)%nat || (0 <? h_nerr h1)); [exact He|].
  set (h2 := if (S n =? MAX_ITERATIONS)%nat then run [EvWait false] h1 else h1).
  assert (He2 : ext h h2).
  { unfold h2. destruct (S n =? MAX_ITERATIONS)%nat; [|exact He].
    eapply ext_trans; [exact He|apply ext_run]. }
  destruct (snd (its n)); [exact He2|].
  eapply ext_trans; [exact He2|apply IH].
Qed.

Lemma resolve_F : forall fuel its n h, F (snd (resolve fuel its n h)) = F h.
Proof.
  induction fuel as [|g IH]; intros its n h; [reflexivity|].
  cbn [resolve].
  set (h1 := report (fst (its n)) (run [EvClear] h)).
  assert (He : F h1 = F h).
  { unfold h1. rewrite F_report. apply F_run. intros [Hx|[]]. discriminate. }
  destruct ((MAX_ITERATIONS <? S n)%nat || (0 <? h_nerr h1)); [exact He|].
  set (h2 := if (S n =? MAX_ITERATIONS)%nat then run [EvWait false] h1 else h1).
  assert (He2 : F h2 = F h).
  { unfold h2. destruct (S n =? MAX_ITERATIONS)%nat; [|exact He].
    rewrite F_run; [exact He|]. intros [Hx|[]]. discriminate. }
  destruct (snd (its n)); [exact He2|]. rewrite IH. exact He2.
Qed.

Lemma resolve_kept : forall fuel its n h,
  kept h -> M h = 0 -> M (snd (resolve fuel its n h)) < two32 ->
  kept (snd (resolve fuel its n h)).
Proof.
  induction fuel as [|g IH]; intros its n h Hk Hm; [intros _; exact Hk|].
  cbn [resolve].
  set (h1 := report (fst (its n)) (run [EvClear] h)).
  assert (Hk1 : kept h1).
  { apply kept_report. apply (kept_step h EvClear Hk). intros _. exact Hm. }
  destruct ((MAX_ITERATIONS <? S n)%nat || (0 <? h_nerr h1)) eqn:Eb; [intros _; exact Hk1|].
  apply orb_false_iff in Eb. destruct Eb as [_ Eb]. apply N.ltb_ge in Eb.
  set (h2 := if (S n =? MAX_ITERATIONS)%nat then run [EvWait false] h1 else h1).
  assert (Hk2 : kept h2).
  { unfold h2. destruct (S n =? MAX_ITERATIONS)%nat; [apply kept_wait|]; exact Hk1. }
  destruct (snd (its n)); [intros _; exact Hk2|].
  intros Hb. apply IH; [exact Hk2| |exact Hb].
  assert (E12 : M h2 = M h1).
  { unfold h2. destruct (S n =? MAX_ITERATIONS)%nat; [|reflexivity].
    apply M_quiet. intros m [Hx|[]]. discriminate. }
  rewrite E12, <- (count_exact h1 (snd (resolve g its (S n) h2)) Hk1); [lia| |exact Hb].
  eapply ext_trans; [|apply resolve_ext].
  unfold h2. destruct (S n =? MAX_ITERATIONS)%nat; [apply ext_run|apply ext_refl].
Qed.

Lemma virtuals_all : forall fuel its msg n h,
  ext h (virtuals fuel its msg n h)
  /\ F (virtuals fuel its msg n h) = F h
  /\ (kept h -> kept (virtuals fuel its msg n h)).
Proof.
  induction fuel as [|g IH]; intros its msg n h;
    [split; [apply ext_refl|split; [reflexivity|tauto]]|].
  cbn [virtuals]. set (h1 := report (fst (its n)) h).
  assert (H1 : ext h h1 /\ F h1 = F h /\ (kept h -> kept h1)).
  { split; [apply ext_report|split; [apply F_report|apply kept_report]]. }
  destruct H1 as (E1 & F1 & K1).
  destruct (MAX_ITERATIONS <? S n)%nat.
  - split; [|split].
    + eapply ext_trans; [exact E1|apply ext_report].
    + rewrite F_report. exact F1.
    + intros Hk. apply kept_report, K1, Hk.
  - set (h2 := if (S n =? MAX_ITERATIONS)%nat then run [EvWait false] h1 else h1).
    assert (H2 : ext h h2 /\ F h2 = F h /\ (kept h -> kept h2)).
    { unfold h2. destruct (S n =? MAX_ITERATIONS)%nat; [|split; [exact E1|split; assumption]].
      split; [eapply ext_trans; [exact E1|apply ext_run]|split].
      - rewrite F_run; [exact F1|]. intros [Hx|[]]. discriminate.
      - intros Hk. apply kept_wait, K1, Hk. }
    destruct (snd (its n)); [exact H2|].
    destruct H2 as (E2 & F2 & K2). destruct (IH its msg (S n) h2) as (E3 & F3 & K3).
    split; [eapply ext_trans; eassumption|split; [congruence|tauto]].
Qed.

(** a step of the driver that logs, fails no file, and clears nothing *)
Definition calm (f : handler -> handler) : Prop :=
  forall h, ext h (f h) /\ F (f h) = F h /\ (kept h -> kept (f h)).

Lemma calm_id : calm (fun h => h).
Proof. intros h. split; [apply ext_refl|split; [reflexivity|tauto]]. Qed.
Lemma calm_report : forall ms, calm (report ms).
Proof. intros ms h. split; [apply ext_report|split; [apply F_report|apply kept_report]]. Qed.
Lemma calm_wait : forall b, calm (run [EvWait b]).
Proof.
  intros b h. split; [apply ext_run|split; [|apply kept_wait]].
  apply F_run. intros [Hx|[]]. discriminate.
Qed.
Lemma calm_comp : forall f g, calm f -> calm g -> calm (fun h => g (f h)).
Proof.
  intros f g Hf Hg h. destruct (Hf h) as (E1 & F1 & K1). destruct (Hg (f h)) as (E2 & F2 & K2).
  split; [eapply ext_trans; eassumption|split; [congruence|tauto]].
Qed.
Lemma calm_if : forall (c : handler -> bool) f g, calm f -> calm g ->
  calm (fun h => if c h then f h else g h).
Proof. intros c f g Hf Hg h. cbn beta. destruct (c h); [apply Hf|apply Hg]. Qed.
Lemma calm_guarded : forall ms, calm (guarded ms).
Proof.
  intros ms. unfold guarded. apply (calm_if (fun h => h_nerr h =? 0)); [apply calm_report|apply calm_id].
Qed.
Lemma calm_virtuals : forall fuel its msg n, calm (virtuals fuel its msg n).
Proof. intros fuel its msg n h. apply virtuals_all. Qed.

Definition label_tail (l : labeling) (inf : nat) (h2 : handler) : handler :=
  report (lb_last l) (guarded (lb_unknown l)
    (if h_nerr h2 =? 0 then
       guarded (lb_defaults l) (guarded (lb_print l) (guarded (lb_pack l)
         (guarded (lb_abstract l)
           ((fun h5 => if (MAX_ITERATIONS <=? inf)%nat then run [EvWait false] h5 else h5)
            ((fun h4 => if h_nerr h4 =? 0
                then virtuals (S (S MAX_ITERATIONS)) (lb_virtual l) (lb_vmsg l) 0
                              (run [EvWait true] h4)
                else h4)
              (guarded (lb_depth l) (guarded (lb_dups l) (report (lb_custom l) h2))))))))
     else h2)).

Lemma calm_tail : forall l inf, calm (label_tail l inf).
Proof.
  intros l inf. unfold label_tail.
  apply (calm_comp (fun h => guarded (lb_unknown l) _)); [|apply calm_report].
  apply (calm_comp (fun h2 => if h_nerr h2 =? 0 then _ else h2)); [|apply calm_guarded].
  apply (calm_if (fun h => h_nerr h =? 0)); [|apply calm_id].
  apply (calm_comp (fun h2 => guarded (lb_print l) _)); [|apply calm_guarded].
  apply (calm_comp (fun h2 => guarded (lb_pack l) _)); [|apply calm_guarded].
  apply (calm_comp (fun h2 => guarded (lb_abstract l) _)); [|apply calm_guarded].
  apply (calm_comp _ (guarded (lb_abstract l))); [|apply calm_guarded].
  apply (calm_comp _ (fun h5 => if (MAX_ITERATIONS <=? inf)%nat then run [EvWait false] h5 else h5)).
  2: { apply (calm_if (fun _ => (MAX_ITERATIONS <=? inf)%nat)); [apply calm_wait|apply calm_id]. }
  apply (calm_comp _ (fun h4 => if h_nerr h4 =? 0
                then virtuals (S (S MAX_ITERATIONS)) (lb_virtual l) (lb_vmsg l) 0
                              (run [EvWait true] h4)
                else h4)).
  2: { apply (calm_if (fun h => h_nerr h =? 0)); [|apply calm_id].
       apply (calm_comp (run [EvWait true])); [apply calm_wait|apply calm_virtuals]. }
  apply (calm_comp (fun h2 => guarded (lb_dups l) _)); [|apply calm_guarded].
  apply (calm_comp (report (lb_custom l))); [apply calm_report|apply calm_guarded].
Qed.

Lemma label_eq : forall errput l h,
  label_program errput l h
  = let h1 := report (lb_first l) (run [EvOut (Some errput); EvClear] h) in
    let r := if h_nerr h1 =? 0 then resolve (S (S MAX_ITERATIONS)) (lb_resolve l) 0 h1
             else (O, h1) in
    (h_nerr (label_tail l (fst r) (snd r)), label_tail l (fst r) (snd r)).
Proof.
  intros errput l h. unfold label_program.
  set (h1 := report (lb_first l) (run [EvOut (Some errput); EvClear] h)).
  cbn zeta.
  destruct (if h_nerr h1 =? 0 then _ else _) as [inf h2]. reflexivity.
Qed.

Lemma label_ok : forall errput l h,
  kept h -> M h = 0 ->
  let r := label_program errput l h in
  ext h (snd r) /\ F (snd r) = F h
  /\ (M (snd r) < two32 -> kept (snd r) /\ fst r = M (snd r)).
Proof.
  intros errput l h Hk Hm. cbn zeta. rewrite label_eq. cbn zeta.
  set (h1 := report (lb_first l) (run [EvOut (Some errput); EvClear] h)).
  assert (E1 : ext h h1) by (eapply ext_trans; [apply ext_run|apply ext_report]).
  assert (F1 : F h1 = F h).
  { unfold h1. rewrite F_report. apply F_run. intros [Hx|[Hx|[]]]; discriminate. }
  assert (K1 : kept h1).
  { apply kept_report. change (run [EvOut (Some errput); EvClear] h)
      with (step (step h (EvOut (Some errput))) EvClear).
    apply kept_step.
    - apply kept_step; [exact Hk|discriminate].
    - intros _. change (step h (EvOut (Some errput))) with (run [EvOut (Some errput)] h).
      rewrite M_quiet; [exact Hm|]. intros m [Hx|[]]. discriminate. }
  set (r := if h_nerr h1 =? 0 then resolve (S (S MAX_ITERATIONS)) (lb_resolve l) 0 h1
            else (O, h1)).
  assert (E2 : ext h1 (snd r)).
  { unfold r. destruct (h_nerr h1 =? 0); [apply resolve_ext|apply ext_refl]. }
  assert (F2 : F (snd r) = F h1).
  { unfold r. destruct (h_nerr h1 =? 0); [apply resolve_F|reflexivity]. }
  destruct (calm_tail l (fst r) (snd r)) as (E3 & F3 & K3).
  cbn [fst snd]. split; [|split].
  - eapply ext_trans; [exact E1|]. eapply ext_trans; eassumption.
  - congruence.
  - intros Hb.
    assert (K2 : kept (snd r)).
    { revert E2 E3 Hb. unfold r at 1 2 3 4 5 6. intros E2 E3 Hb.
      unfold r in *. destruct (h_nerr h1 =? 0) eqn:E; [|exact K1].
      apply N.eqb_eq in E.
      assert (M h1 = 0).
      { rewrite <- (count_exact h1 _ K1 (ext_trans _ _ _ E2 E3) Hb). exact E. }
      apply resolve_kept; [exact K1|assumption|].
      apply ext_M in E3. lia. }
    split; [apply K3, K2|].
    apply (count_exact _ _ (K3 K2) (ext_refl _) Hb).
Qed.

(** *** files *)

Lemma file_ok : forall errput f h, kept h ->
  let r := compile_file errput f h in
  ext h (snd r) /\ kept (snd r)
  /\ (M (snd r) + 1 < two32 ->
      (fst r = 0 -> M (snd r) + F (snd r) <= M h + F h)
      /\ (fst r <> 0 -> 0 < M (snd r) + F (snd r))
      /\ fst r <= M (snd r) + 2).
Proof.
  intros errput f h Hk. cbn zeta.
  assert (Herr : forall loc t, ext h (report [err_msg loc t] h) /\ kept (report [err_msg loc t] h)
    /\ (M (report [err_msg loc t] h) + 1 < two32 ->
      (1 = 0 -> M (report [err_msg loc t] h) + F (report [err_msg loc t] h) <= M h + F h)
      /\ (1 <> 0 -> 0 < M (report [err_msg loc t] h) + F (report [err_msg loc t] h))
      /\ 1 <= M (report [err_msg loc t] h) + 2)).
  { intros loc t. split; [apply ext_report|split; [apply kept_report; exact Hk|]].
    intros _. rewrite M_err. repeat split; intros; lia. }
  destruct f as [|loc msg|msg|pf p]; cbn [compile_file fst snd].
  - split; [apply ext_refl|split; [exact Hk|]]. intros _. repeat split; intros; lia.
  - apply Herr.
  - apply Herr.
  - set (h1 := if pf then run [EvFail] h else h).
    assert (E1 : ext h h1) by (unfold h1; destruct pf; [apply ext_run|apply ext_refl]).
    assert (K1 : kept h1).
    { unfold h1. destruct pf; [|exact Hk]. apply kept_run; [exact Hk|].
      intros [Hx|[]]. discriminate. }
    assert (F1 : F h1 = F h + (if pf then 1 else 0)).
    { unfold h1. destruct pf; [|lia]. unfold F. rewrite run_log, failures_app. reflexivity. }
    unfold parse_program. set (h2 := run [EvOut (Some errput)] h1).
    assert (E2 : ext h1 h2) by apply ext_run.
    assert (K2 : kept h2).
    { apply kept_run; [exact K1|]. intros [Hx|[]]. discriminate. }
    assert (F2 : F h2 = F h1).
    { apply F_run. intros [Hx|[]]. discriminate. }
    destruct p as [msg|ms]; cbn [fst snd].
    + split; [eapply ext_trans; [exact E1|]; eapply ext_trans; [exact E2|apply ext_report]|].
      split; [apply kept_report; exact K2|].
      intros Hb. rewrite F_report, F2, F1, M_err.
      rewrite u32_small by (unfold two32; destruct pf; lia).
      repeat split; intros; destruct pf; lia.
    + assert (E3 : ext h2 (report ms h2)) by apply ext_report.
      assert (K3 : kept (report ms h2)) by (apply kept_report; exact K2).
      split; [eapply ext_trans; [exact E1|]; eapply ext_trans; eassumption|].
      split; [exact K3|].
      intros Hb. rewrite F_report, F2, F1.
      rewrite (count_exact _ _ K3 (ext_refl _)) by lia.
      rewrite u32_small by (destruct pf; lia).
      repeat split; intros; destruct pf; lia.
Qed.

Lemma list_ok : forall errput fs perrs h, kept h ->
  let r := compile_list errput fs perrs h in
  ext h (snd r) /\ kept (snd r)
  /\ (perrs + N.of_nat (List.length fs) * (M (snd r) + 2) < two32 ->
      M (snd r) + 1 < two32 ->
      (perrs = 0 <-> M h + F h = 0) ->
      (fst r = 0 <-> M (snd r) + F (snd r) = 0)
      /\ fst r <= perrs + N.of_nat (List.length fs) * (M (snd r) + 2)).
Proof.
  induction fs as [|f fs IH]; intros perrs h Hk.
  - cbn [compile_list fst snd List.length]. split; [apply ext_refl|split; [exact Hk|]].
    intros _ _ H. split; [exact H|lia].
  - cbn zeta. cbn [compile_list].
    destruct (file_ok errput f h Hk) as (E1 & K1 & B1).
    destruct (compile_file errput f h) as [n h1]. cbn [fst snd] in *.
    destruct (IH (u32 (perrs + n)) h1 K1) as (E2 & K2 & B2). cbn zeta in *.
    set (r := compile_list errput fs (u32 (perrs + n)) h1) in *.
    split; [eapply ext_trans; eassumption|split; [exact K2|]].
    intros Hb Hm Hz. cbn [List.length] in *.
    assert (Hle : M h1 <= M (snd r)) by (apply ext_M; exact E2).
    destruct B1 as (B11 & B12 & B13); [lia|].
    assert (Hlen : N.of_nat (S (List.length fs)) = N.of_nat (List.length fs) + 1) by lia.
    rewrite Hlen in *.
    assert (Hexp : (N.of_nat (List.length fs) + 1) * (M (snd r) + 2)
       = N.of_nat (List.length fs) * (M (snd r) + 2) + (M (snd r) + 2)) by lia.
    rewrite Hexp in *.
    assert (Hu : u32 (perrs + n) = perrs + n) by (apply u32_small; lia).
    rewrite Hu in B2.
    destruct B2 as (B21 & B22); [lia|exact Hm| |].
    + pose proof (ext_M _ _ E1) as X1. pose proof (ext_F _ _ E1) as X2.
      split.
      * intros H. assert (n = 0 /\ perrs = 0) as [Hn Hp] by lia.
        apply Hz in Hp. specialize (B11 Hn). lia.
      * intros H. assert (perrs = 0) by (apply Hz; lia).
        destruct (N.eq_dec n 0) as [->|Hn]; [lia|]. specialize (B12 Hn). lia.
    + split; [exact B21|lia].
Qed.

Lemma rounds_ok : forall errput rs perrs h, kept h ->
  let r := compile_rounds errput rs perrs h in
  ext h (snd r) /\ kept (snd r)
  /\ (perrs + N.of_nat (List.length (concat rs)) * (M (snd r) + 2) < two32 ->
      M (snd r) + 1 < two32 ->
      (perrs = 0 <-> M h + F h = 0) ->
      (fst r = 0 <-> M (snd r) + F (snd r) = 0)).
Proof.
  induction rs as [|fs rs IH]; intros perrs h Hk.
  - cbn [compile_rounds fst snd]. split; [apply ext_refl|split; [exact Hk|]].
    intros _ _ H. exact H.
  - cbn zeta. cbn [compile_rounds].
    destruct (perrs =? 0) eqn:Ep.
    2: { cbn [fst snd]. split; [apply ext_refl|split; [exact Hk|tauto]]. }
    destruct (list_ok errput fs perrs h Hk) as (E1 & K1 & B1).
    destruct (compile_list errput fs perrs h) as [n h1]. cbn [fst snd] in *.
    destruct (IH n h1 K1) as (E2 & K2 & B2). cbn zeta in *.
    set (r := compile_rounds errput rs n h1) in *.
    split; [eapply ext_trans; eassumption|split; [exact K2|]].
    intros Hb Hm Hz. cbn [concat] in Hb. rewrite app_length in Hb.
    pose proof (ext_M _ _ E2) as X1.
    assert (Hle : N.of_nat (List.length fs) * (M h1 + 2)
                  <= N.of_nat (List.length fs) * (M (snd r) + 2))
      by (apply N.mul_le_mono_l; lia).
    assert (Hexp : N.of_nat (List.length fs + List.length (concat rs)) * (M (snd r) + 2)
       = N.of_nat (List.length fs) * (M (snd r) + 2)
         + N.of_nat (List.length (concat rs)) * (M (snd r) + 2)) by lia.
    rewrite Hexp in Hb.
    destruct B1 as (B11 & B12); [lia|lia|exact Hz|].
    apply B2; [lia|exact Hm|exact B11].
Qed.

End Driver.

(** compileFiles returns zero exactly when no error was reported and every file could be
    opened, over the whole compilation: clearing the counts between the phases never loses an
    error.  (The number of files times the number of errors must fit 32 bits.)  *)
Theorem C59_result : forall info note warn wait out errput fs rs l registry gencode,
  let h0 := handler0 info note warn wait out in
  let r := compile_files errput fs rs l registry gencode h0 in
  let es := h_log (snd r) in
  N.of_nat (List.length fs + List.length (concat rs) + 1) * (errors wait es + 2) < two32 ->
  fst r = 0 <-> problems wait es = 0.
Proof.
  intros info note warn wait out errput fs rs l registry gencode h0 r es.
  unfold problems, es, r. clear es r. unfold compile_files.
  pose proof (kept0 info note warn wait out) as K0. fold h0 in K0.
  destruct (list_ok info note warn wait out errput fs 0 h0 K0) as (E1 & K1 & B1).
  destruct (compile_list errput fs 0 h0) as [p1 h1]. cbn [fst snd] in *.
  destruct (rounds_ok info note warn wait out errput rs p1 h1 K1) as (E2 & K2 & B2).
  destruct (compile_rounds errput rs p1 h1) as [p2 h2]. cbn [fst snd] in *.
  assert (H12 : forall h', ext h2 h' ->
     N.of_nat (List.length fs + List.length (concat rs) + 1) * (M wait h' + 2) < two32 ->
     (p2 = 0 <-> M wait h2 + F h2 = 0)).
  { intros h' Ex Hb.
    pose proof (ext_M wait _ _ E2) as X1. pose proof (ext_M wait _ _ Ex) as X2.
    assert (Y1 : N.of_nat (List.length fs) * (M wait h1 + 2)
                 <= N.of_nat (List.length fs) * (M wait h' + 2))
      by (apply N.mul_le_mono_l; lia).
    assert (Y2 : N.of_nat (List.length (concat rs)) * (M wait h2 + 2)
                 <= N.of_nat (List.length (concat rs)) * (M wait h' + 2))
      by (apply N.mul_le_mono_l; lia).
    assert (Y3 : N.of_nat (List.length fs + List.length (concat rs) + 1) * (M wait h' + 2)
       = N.of_nat (List.length fs) * (M wait h' + 2)
         + N.of_nat (List.length (concat rs)) * (M wait h' + 2) + (M wait h' + 2)) by lia.
    rewrite Y3 in Hb.
    destruct B1 as (B11 & B12); [lia|lia|split; reflexivity|].
    apply B2; [lia|lia|exact B11]. }
  destruct (p2 =? 0) eqn:Ep2.
  2: { rewrite Ep2. rewrite Ep2. cbn [fst snd]. intros Hb. exact (H12 h2 (ext_refl _) Hb). }
  apply N.eqb_eq in Ep2.
  (* labeling: no error so far *)
  assert (Hlab : M wait h2 + F h2 = 0 -> ext h2 (snd (label_program errput l h2)) /\
     F (snd (label_program errput l h2)) = F h2 /\
     (M wait (snd (label_program errput l h2)) < two32 ->
       kept info note warn wait out (snd (label_program errput l h2)) /\
       fst (label_program errput l h2) = M wait (snd (label_program errput l h2)))).
  { intros Hz. apply (label_ok info note warn wait out errput l h2 K2). lia. }
  assert (Xlab : ext h2 (snd (label_program errput l h2))).
  { rewrite label_eq. cbn zeta. cbn [snd].
    set (h3 := report (lb_first l) (run [EvOut (Some errput); EvClear] h2)).
    assert (X1 : ext h2 h3) by (eapply ext_trans; [apply ext_run|apply ext_report]).
    set (q := if h_nerr h3 =? 0 then _ else _).
    assert (X2 : ext h3 (snd q)).
    { unfold q. destruct (h_nerr h3 =? 0); [apply resolve_ext|apply ext_refl]. }
    eapply ext_trans; [exact X1|]. eapply ext_trans; [exact X2|].
    apply (calm_tail info note warn wait out l (fst q) (snd q)). }
  destruct (label_program errput l h2) as [p3 h3]. cbn [fst snd] in *.
  destruct (p3 =? 0) eqn:Ep3.
  2: { rewrite Ep3. cbn [fst snd]. intros Hb.
       assert (Hz : M wait h2 + F h2 = 0) by (apply (H12 h3 Xlab Hb); exact Ep2).
       destruct (Hlab Hz) as (_ & F3 & K3).
       destruct K3 as (K3 & C3); [unfold M; lia|].
       change (errors wait (h_log h3)) with (M wait h3).
       change (failures (h_log h3)) with (F h3). rewrite C3. split; lia. }
  apply N.eqb_eq in Ep3.
  set (h4 := report registry h3).
  assert (X4 : ext h3 h4) by apply ext_report.
  cbn zeta.
  destruct (h_nerr h4 =? 0) eqn:Ep4; cbn [fst snd]; intros Hb.
  - apply N.eqb_eq in Ep4. set (h5 := report gencode h4) in *.
    assert (X5 : ext h4 h5) by apply ext_report.
    assert (X35 : ext h3 h5) by (eapply ext_trans; eassumption).
    assert (Hz : M wait h2 + F h2 = 0).
    { apply (H12 h5); [eapply ext_trans; eassumption|exact Hb|exact Ep2]. }
    destruct (Hlab Hz) as (_ & F3 & K3).
    change (errors wait (h_log h5)) with (M wait h5) in *.
    change (failures (h_log h5)) with (F h5).
    destruct K3 as (K3 & C3); [apply (ext_M wait) in X35; lia|].
    assert (K5 : kept info note warn wait out h5) by (apply kept_report, kept_report; exact K3).
    rewrite (count_exact info note warn wait out h5 h5 K5 (ext_refl _)) by lia.
    unfold h5, h4. rewrite !F_report. split; lia.
  - assert (Hz : M wait h2 + F h2 = 0).
    { apply (H12 h4); [eapply ext_trans; eassumption|exact Hb|exact Ep2]. }
    destruct (Hlab Hz) as (_ & F3 & K3).
    change (errors wait (h_log h4)) with (M wait h4) in *.
    change (failures (h_log h4)) with (F h4).
    destruct K3 as (K3 & C3); [apply (ext_M wait) in X4; lia|].
    assert (K4 : kept info note warn wait out h4) by (apply kept_report; exact K3).
    rewrite (count_exact info note warn wait out h4 h4 K4 (ext_refl _)) by lia.
    unfold h4. rewrite !F_report. split; lia.
Qed.
Print Assumptions C59_result.

(** A run with nothing to say in the labeling phases.  *)
Definition quiet : labeling :=
  mkLab [] (fun _ => ([], true)) [] [] [] (fun _ => ([], true)) [] [] [] [] [] [] [].
Definition parse_errors (n : nat) : file_run :=
  NewFile false (Parsed (repeat (err_msg (txt "A.ulam:1:1:") (txt "Bad")) n)).
Definition parse_clean : file_run := NewFile false (Parsed []).

(** The exit status does not tell.  culam returns the number of errors as its exit status,
    of which the system keeps 8 bits: with 256 errors in one file, or with 128 errors in one
    file followed by one further file without any (the errors are counted again after each
    file), the compilation fails with exit status 0, success.  *)
Theorem C59_exit_refuted :
  (let r := compile_files 2 [parse_clean; parse_errors 256] [] quiet [] []
              (handler0 false false true true None) in
   problems true (h_log (snd r)) = 256 /\ exit_status (fst r) = 0)
  /\ (let r := compile_files 2 [parse_clean; parse_errors 128; parse_clean] [] quiet [] []
              (handler0 false false true true None) in
   problems true (h_log (snd r)) = 128 /\ fst r = 256 /\ exit_status (fst r) = 0).
Proof. vm_compute. repeat split. Qed.
Print Assumptions C59_exit_refuted.

(** The exit status is right while the number returned is below 256.  Missing: the other
    numbers, where the status is right only if the number is not a multiple of 256.  *)
Theorem C59_exit_partial : forall info note warn wait out errput fs rs l registry gencode,
  let h0 := handler0 info note warn wait out in
  let r := compile_files errput fs rs l registry gencode h0 in
  let es := h_log (snd r) in
  N.of_nat (List.length fs + List.length (concat rs) + 1) * (errors wait es + 2) < two32 ->
  fst r < 256 ->
  exit_status (fst r) = 0 <-> problems wait es = 0.
Proof.
  intros info note warn wait out errput fs rs l registry gencode h0 r es Hb Hs.
  unfold exit_status. rewrite N.mod_small by exact Hs.
  unfold r, h0. apply C59_result. exact Hb.
Qed.
Print Assumptions C59_exit_partial.

(** A compilation with a warning in an early turn of the resolving loop, a wait message held
    back until the last turn and then an error: it fails, with the error shown.  *)
Example C59_ex :
  let wt := Msg (txt "A.ulam:9:1:") (txt "Incomplete") MSG_WAIT true in
  let lab := mkLab [] (fun _ => ([wt], false)) [] [] [] (fun _ => ([], true)) [] [] [] [] [] [] [] in
  let r := compile_files 2 [parse_clean; parse_clean] [[AlreadyOk]] lab [] []
             (handler0 false false true true None) in
  fst r = 1 /\ problems true (h_log (snd r)) = 1 /\ exit_status (fst r) = 1
  /\ h_written (snd r) = [(2, txt "A.ulam:9:1: ERROR: Incomplete." ++ [10])]
  /\ (let r := compile_files 2 [parse_clean; parse_clean] [[AlreadyOk]] quiet [] []
             (handler0 false false true true None) in
      fst r = 0 /\ problems true (h_log (snd r)) = 0).
Proof. vm_compute. repeat split. Qed.
