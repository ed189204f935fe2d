(* ConstResProofs.v *)
From Coq Require Import List NArith ZArith Bool Lia Wellfounded Relations PeanoNat.
From Verif Require Import ConstResModel ConstResSpec.
Import ListNotations.
Open Scope N_scope.

Section Prog.
Variable ds : list def.
Hypothesis ND : NoDup (map d_id ds).
Lemma same_def d d' : In d ds -> In d' ds -> d_id d = d_id d' -> d = d'.
Proof.
  revert ND. induction ds as [|x l IH]; [intros _ []|]. intro ND'. cbn in ND'. inversion ND' as [|? ? N1 N2]; subst. intros [->|H] [->|H'] E; auto.
  - elim N1. rewrite E. now apply in_map.
  - elim N1. rewrite <- E. now apply in_map.
Qed.
Lemma Value_fun e v : Value ds e v -> forall v', Value ds e v' -> v = v'.
Proof.
  induction 1 as [v|d v w Hd V IH Hf|o a b u v w A IHA B IHB Ho]; intros v' H'.
  - now inversion H'.
  - inversion H' as [|d' v1 w1 Hd' V' Hf' Ei|]; subst. assert (d = d') by now apply same_def. subst d'. rewrite (IH _ V') in *. congruence.
  - inversion H' as [| |o' a' b' u' v1 w1 A' B' Ho']; subst. rewrite (IHA _ A'), (IHB _ B') in *. congruence.
Qed.

(* soundness *)
Definition sound (r : env) : Prop := forall i v, r i = Some v -> Value ds (EName i) v.
Lemma label_sound r e v x : sound r -> label r e = (Ready v, x) -> Value ds e v.
Proof.
  intro S. revert v x. induction e as [u|i|o a IHa b IHb]; intros v x; cbn [label].
  - intro H. injection H as -> _. constructor.
  - destruct (r i) eqn:E; [|discriminate]. intro H. injection H as -> _. now apply S.
  - destruct (label r a) as [xa ea]. destruct (label r b) as [xb eb]. destruct xa as [u| |]; [|discriminate|discriminate]. destruct xb as [w| |]; [|discriminate|discriminate].
    destruct (o u w) eqn:Eo; [|discriminate]. intro H. injection H as -> _. econstructor; eauto.
Qed.
Definition le (r r' : env) : Prop := forall i v, r i = Some v -> r' i = Some v.
Lemma labelDef_ok r d : In d ds -> sound r -> let '(r', h, e) := labelDef r d in
  sound r' /\ le r r' /\ (forall i, i <> d_id d -> r' i = r i) /\ (h = false -> e = false -> r' (d_id d) <> None) /\ (r (d_id d) = None -> r' (d_id d) <> None -> exists v x, label r (d_ex d) = (Ready v, x)).
Proof.
  intros Hd S. unfold labelDef. destruct (label r (d_ex d)) as [[v| |] e] eqn:L.
  - destruct (r (d_id d)) as [w|] eqn:R.
    + repeat split; auto; try congruence; try (intros i u H; exact H).
    + destruct (d_fit d v) as [w|] eqn:F.
      * split; [|split; [|split; [|split]]].
        -- intros i u. unfold set. destruct (i =? d_id d) eqn:E; [|apply S]. intro H. injection H as <-. apply N.eqb_eq in E. subst i. apply V_name with v; auto. eapply label_sound; eauto.
        -- intros i u H. unfold set. destruct (i =? d_id d) eqn:E; [|exact H]. apply N.eqb_eq in E. congruence.
        -- intros i Hi. unfold set. apply N.eqb_neq in Hi. now rewrite Hi.
        -- intros _ _. unfold set. rewrite N.eqb_refl. discriminate.
        -- intros _ _. eauto.
      * repeat split; auto; try congruence; try (intros i u H; exact H).
  - repeat split; auto; try congruence; try (intros i u H; exact H).
  - repeat split; auto; try congruence; try (intros i u H; exact H).
Qed.
Lemma pass_ok : forall l r, incl l ds -> sound r -> let '(r', h, e) := pass r l in
  sound r' /\ le r r' /\ (forall i, ~ In i (map d_id l) -> r' i = r i) /\ (h = false -> e = false -> forall d, In d l -> r' (d_id d) <> None).
Proof.
  induction l as [|d l IH]; intros r Hl S; cbn [pass].
  - repeat split; auto; try (intros i v H; exact H); intros _ _ d [].
  - pose proof (labelDef_ok r d (Hl d (or_introl eq_refl)) S) as D. destruct (labelDef r d) as [[r1 h1] e1]. destruct D as (S1 & L1 & K1 & R1 & _).
    specialize (IH r1 (fun x H => Hl x (or_intror H)) S1). destruct (pass r1 l) as [[r2 h2] e2]. destruct IH as (S2 & L2 & K2 & R2). split; [exact S2|].
    split; [intros i v H; apply L2, L1, H|]. split.
    + intros i Hi. cbn [map In] in Hi. rewrite K2, K1; auto. 
    + intros Hh He. apply orb_false_iff in Hh, He. destruct Hh, He. intros x [<-|Hx]; [|now apply R2].
      destruct (r1 (d_id d)) as [v|] eqn:E; [|now elim R1]. rewrite (L2 _ _ E). discriminate.
Qed.
Lemma loop_ok : forall n r r', sound r -> loop n r ds = Some r' -> sound r' /\ forall d, In d ds -> r' (d_id d) <> None.
Proof.
  induction n as [|n IH]; intros r r' S; cbn [loop]; [discriminate|]. pose proof (pass_ok ds r (incl_refl _) S) as P. destruct (pass r ds) as [[r1 h] e]. destruct P as (S1 & _ & _ & R1).
  destruct e; [discriminate|]. destruct h.
  - destruct n; [discriminate|]. now apply IH.
  - intro H. injection H as <-. auto.
Qed.
Lemma sound0 : sound (fun _ => None). Proof. intros i v H. discriminate. Qed.
Lemma resolve_ok r : resolve ds = Some r -> sound r /\ forall d, In d ds -> r (d_id d) <> None.
Proof.
  unfold resolve. pose proof (pass_ok ds _ (incl_refl _) sound0) as P. destruct (pass _ ds) as [[r1 h] e]. destruct P as (S1 & _). destruct e; [discriminate|]. now apply loop_ok.
Qed.

(* what is circular has no value *)
Definition needs1 (x y : N) : Prop := exists d, In d ds /\ d_id d = y /\ uses (d_ex d) x.
Lemma Value_acc e v : Value ds e v -> forall j, uses e j -> Acc needs1 j.
Proof.
  induction 1 as [v|d v w Hd V IH Hf|o a b u v w A IHA B IHB Ho]; intros j U; inversion U; subst; auto.
  constructor. intros x (d' & Hd' & Ei & Ux). assert (d' = d) by now apply same_def. subst d'. auto.
Qed.
Lemma needs_clos i j : needs ds i j -> clos_trans N needs1 j i.
Proof. induction 1 as [d j Hd U|i j k A IHA B IHB]; [apply t_step; now exists d | eapply t_trans; eauto]. Qed.
Lemma Acc_irr {A} (R : A -> A -> Prop) x : Acc R x -> ~ R x x.
Proof. induction 1 as [x _ IH]. intro H. exact (IH x H H). Qed.
Lemma circular i v : needs ds i i -> ~ Value ds (EName i) v.
Proof. intros H V. apply needs_clos in H. eapply Acc_irr; [|exact H]. apply Acc_clos_trans. eapply Value_acc; [exact V | constructor]. Qed.
Lemma needs_def i j : needs ds i j -> defined ds i.
Proof. induction 1; auto. eexists; split; eauto. Qed.

(* how many passes *)
Definition valued : Prop := forall d, In d ds -> exists v, Value ds (EName (d_id d)) v.
Lemma label_val r e v : sound r -> Value ds e v -> label r e = (Ready v, false) \/ label r e = (Hazy, false) /\ exists j, uses e j /\ r j = None.
Proof.
  intros S. induction 1 as [v|d v w Hd V IH Hf|o a b u v w A IHA B IHB Ho]; cbn [label]; [now left| |].
  - destruct (r (d_id d)) as [x|] eqn:E; [|right; split; [reflexivity|]; exists (d_id d); split; [constructor | exact E]].
    left. rewrite (Value_fun _ _ (S _ _ E) w); [reflexivity|]. now apply V_name with v.
  - destruct IHA as [->|(-> & j & U & Rj)].
    + destruct IHB as [->|(-> & j & U & Rj)]; [left; now rewrite Ho | right; split; [reflexivity|]; exists j; split; [now apply U_right | exact Rj]].
    + destruct IHB as [->|(-> & _)]; right; (split; [reflexivity|]; exists j; split; [now apply U_left | exact Rj]).
Qed.
Lemma labelDef_val r d : In d ds -> sound r -> valued -> let '(r', h, e) := labelDef r d in
  e = false /\ (h = true -> exists j, uses (d_ex d) j /\ r j = None) /\ (h = false -> r' (d_id d) <> None).
Proof.
  intros Hd S VA. destruct (VA d Hd) as (w & V). unfold labelDef. inversion V as [|d' v w' Hd' V' Hf Ei|]; subst. assert (d' = d) by now apply same_def. subst d'.
  destruct (label_val r _ _ S V') as [->|(-> & J)].
  - destruct (r (d_id d)) eqn:R; [repeat split; congruence|]. rewrite Hf. repeat split; try congruence. intros _. unfold set. rewrite N.eqb_refl. discriminate.
  - repeat split; try congruence.
Qed.
Variable rk : N -> nat.
Hypothesis RK : ranked ds rk.
Definition upto (p : nat) (r : env) : Prop := forall d, In d ds -> (rk (d_id d) < p)%nat -> r (d_id d) <> None.
Lemma uses_def e v : Value ds e v -> forall j, uses e j -> exists d, In d ds /\ d_id d = j.
Proof. induction 1 as [v|d v w Hd V IH Hf|o a b u v w A IHA B IHB Ho]; intros j U; inversion U; subst; auto. now exists d. Qed.
Lemma NoDup_split a d c : ds = a ++ d :: c -> ~ In (d_id d) (map d_id a).
Proof. intros E H. rewrite E, map_app in ND. cbn in ND. apply NoDup_remove_2 in ND. apply ND, in_or_app. now left. Qed.
Lemma before_pre a d c j : ds = a ++ d :: c -> before ds j (d_id d) -> exists x, In x a /\ d_id x = j.
Proof.
  intros E (a' & b & c' & dj & di & E' & Ej & Ei). assert (di = d). { apply same_def; [rewrite E'; apply in_or_app; right; right; apply in_or_app; right; now left | rewrite E; apply in_or_app; right; now left | exact Ei]. } subst di.
  exists dj. split; [|exact Ej]. assert (Q : a = a' ++ dj :: b).
  { clear - ND E E'. rewrite E in *. clear E. revert a' E' ND. assert (G : forall (p q : list def) c c', p ++ d :: c = q ++ d :: c' -> NoDup (map d_id (p ++ d :: c)) -> p = q).
    { induction p as [|x p IH]; intros [|y q] c0 c1 H N; cbn in H; auto.
      - injection H as -> H. cbn in N. inversion N as [|? ? N1 _]. elim N1. subst c0. rewrite map_app. apply in_or_app. right. now left.
      - injection H as -> H. cbn in N. inversion N as [|? ? N1 _]. elim N1. rewrite map_app. apply in_or_app. right. now left.
      - injection H as -> H. cbn in N. inversion N. f_equal. eapply IH; eauto. }
    intros a' E' N. apply (G a (a' ++ dj :: b) c c'); [|exact N]. rewrite E'. now rewrite <- app_assoc. }
  subst a. apply in_or_app. right. now left.
Qed.
Lemma pass_rank p : forall l a r, ds = a ++ l -> sound r -> valued -> upto p r -> (forall d, In d a -> (rk (d_id d) <= p)%nat -> r (d_id d) <> None) ->
  let '(r', h, e) := pass r l in e = false /\ upto (S p) r' /\ (h = true -> exists d, In d ds /\ (p < rk (d_id d))%nat).
Proof.
  induction l as [|d l IH]; intros a r E S VA U A; cbn [pass].
  - split; [reflexivity|]. split; [|discriminate]. intros d Hd Hr. apply A; [|lia]. rewrite E, app_nil_r in Hd. exact Hd.
  - assert (Hd : In d ds) by (rewrite E; apply in_or_app; right; now left).
    pose proof (labelDef_ok r d Hd S) as D. pose proof (labelDef_val r d Hd S VA) as V. destruct (labelDef r d) as [[r1 h1] e1]. destruct D as (S1 & L1 & K1 & _ & _). destruct V as (-> & Vh & Vr).
    assert (HZ : h1 = true -> (p < rk (d_id d))%nat).
    { intro Hh. destruct (Vh Hh) as (j & Uj & Rj). destruct (Nat.le_gt_cases (rk (d_id d)) p) as [G|G]; [|exact G]. exfalso.
      destruct (VA d Hd) as (w & V). inversion V as [|d' v w' Hd' V' Hf Ei|]; subst. assert (d' = d) by now apply same_def. subst d'. destruct (uses_def _ _ V' j Uj) as (dj & Hj & Ej).
      destruct (RK d j Hd Uj) as [R1 R2]. destruct (in_dec N.eq_dec j (map d_id a)) as [I|I].
      - apply in_map_iff in I. destruct I as (x & Ex & Hx). assert (x = dj). { apply same_def; auto; [rewrite E; apply in_or_app; now left | congruence]. } subst x.
        apply (A dj Hx); [|now rewrite Ej]. rewrite Ej. etransitivity; [apply R1|exact G]. apply in_split in Hx. destruct Hx as (a1 & a2 & ->). exists a1, a2, l, dj, d. rewrite E, <- app_assoc. auto.
      - apply (U dj Hj); [|now rewrite Ej]. rewrite Ej. enough (Datatypes.S (rk j) <= rk (d_id d))%nat by lia. apply R2. intro B. apply I. destruct (before_pre a d l j E B) as (x & Hx & <-). now apply in_map. }
    assert (G : let '(r', h, e) := pass r1 l in e = false /\ upto (Datatypes.S p) r' /\ (h = true -> exists d, In d ds /\ (p < rk (d_id d))%nat)).
    { apply (IH (a ++ [d])); auto.
      - now rewrite <- app_assoc.
      - intros x Hx Hr. specialize (U x Hx Hr). destruct (r (d_id x)) as [v|] eqn:Ev; [|now elim U]. rewrite (L1 _ _ Ev). discriminate.
      - intros x Hx Hr. apply in_app_or in Hx. destruct Hx as [Hx|[<-|[]]].
        + specialize (A x Hx Hr). destruct (r (d_id x)) as [v|] eqn:Ev; [|now elim A]. rewrite (L1 _ _ Ev). discriminate.
        + apply Vr. destruct h1; auto. specialize (HZ eq_refl). lia. }
    destruct (pass r1 l) as [[r2 h2] e2]. destruct G as (-> & G2 & G3). split; [reflexivity|]. split; [exact G2|]. intro Hh. apply orb_true_iff in Hh. destruct Hh as [Hh|Hh]; [exists d; auto | auto].
Qed.
Lemma loop_rank : forall n p r, sound r -> valued -> upto p r -> (forall d, In d ds -> (rk (d_id d) < p + S n)%nat) -> exists r', loop (S n) r ds = Some r'.
Proof.
  induction n as [|n IH]; intros p r S VA U B.
  - cbn [loop]. pose proof (pass_rank p ds [] r eq_refl S VA U ltac:(intros d [])) as P. destruct (pass r ds) as [[r1 h] e]. destruct P as (-> & _ & Hh). destruct h; [|eauto].
    destruct (Hh eq_refl) as (d & Hd & Hr). specialize (B d Hd). lia.
  - change (loop (Datatypes.S (Datatypes.S n)) r ds) with (let '(r1, h, e) := pass r ds in if e then None else if h then loop (Datatypes.S n) r1 ds else Some r1).
    pose proof (pass_rank p ds [] r eq_refl S VA U ltac:(intros d [])) as P. pose proof (pass_ok ds r (incl_refl _) S) as Q. destruct (pass r ds) as [[r1 h] e]. destruct P as (-> & U1 & _). destruct Q as (S1 & _).
    destruct h; [|eauto]. apply (IH (Datatypes.S p)); auto. intros d Hd. specialize (B d Hd). lia.
Qed.
Lemma resolve_rank : valued -> (forall d, In d ds -> (rk (d_id d) <= S MAX_ITERATIONS)%nat) -> exists r, resolve ds = Some r.
Proof.
  intros VA B. unfold resolve. assert (U0 : upto 0 (fun _ => None)) by (intros d _ H; lia).
  pose proof (pass_rank 0 ds [] _ eq_refl sound0 VA U0 ltac:(intros d [])) as P. pose proof (pass_ok ds _ (incl_refl _) sound0) as Q. destruct (pass _ ds) as [[r1 h] e]. destruct P as (-> & U1 & _). destruct Q as (S1 & _).
  apply (loop_rank MAX_ITERATIONS 1); auto. intros d Hd. specialize (B d Hd). lia.
Qed.
End Prog.

(* the ranks of an accepted program: the pass in which each constant became ready *)
Section Converse.
Variable ds : list def.
Hypothesis ND : NoDup (map d_id ds).
Definition next (r : env) : env := fst (fst (pass r ds)).
Fixpoint after (n : nat) : env := match n with O => fun _ => None | S n => next (after n) end.
Lemma after_sound n : sound ds (after n).
Proof. induction n as [|n IH]; [apply sound0|]. cbn. unfold next. pose proof (pass_ok ds ds _ (incl_refl _) IH) as P. destruct (pass (after n) ds) as [[r h] e]. apply P. Qed.
Lemma loop_after : forall n k r, loop n (after k) ds = Some r -> exists m, (m <= k + n)%nat /\ r = after m.
Proof.
  induction n as [|n IH]; intros k r; cbn [loop]; [discriminate|]. assert (E : after (S k) = fst (fst (pass (after k) ds))) by reflexivity. destruct (pass (after k) ds) as [[r1 h] e]. cbn [fst] in E.
  destruct e; [discriminate|]. destruct h.
  - destruct n as [|n]; [discriminate|]. rewrite <- E. intro H. destruct (IH _ _ H) as (m & Hm & ->). exists m. split; [lia | reflexivity].
  - intro H. injection H as <-. exists (S k). split; [lia | now rewrite E].
Qed.
Lemma resolve_after r : resolve ds = Some r -> exists m, (m <= 2 + MAX_ITERATIONS)%nat /\ r = after m.
Proof.
  unfold resolve. assert (E : after 1 = fst (fst (pass (fun _ => None) ds))) by reflexivity. destruct (pass (fun _ => None) ds) as [[r1 h] e]. cbn [fst] in E. destruct e; [discriminate|].
  rewrite <- E. intro H. destruct (loop_after _ _ _ H) as (m & Hm & ->). exists m. split; [lia | reflexivity].
Qed.
(* the first pass, counted from 0, after which i is ready, or n *)
Fixpoint first (n : nat) (i : N) (k : nat) : nat := match n with O => k | S n => match after (S k) i with Some _ => k | None => first n i (S k) end end.
Lemma first_spec : forall n i k, (k <= first n i k <= k + n)%nat /\ (forall p, (k <= p < first n i k)%nat -> after (S p) i = None) /\ ((first n i k < k + n)%nat -> after (S (first n i k)) i <> None).
Proof.
  induction n as [|n IH]; intros i k; cbn [first]; [repeat split; lia|]. destruct (after (S k) i) eqn:E.
  - repeat split; try lia. intros _. rewrite E. discriminate.
  - destruct (IH i (S k)) as (A & B & C). repeat split; try lia.
    + intros p Hp. destruct (Nat.eq_dec p k) as [->|]; [exact E | apply B; lia].
    + intro H. apply C. lia.
Qed.
Lemma mono k m : (k <= m)%nat -> le (after k) (after m).
Proof.
  induction 1 as [|m H IH]; [intros i v E; exact E|]. intros i v E. cbn. unfold next. pose proof (pass_ok ds ds _ (incl_refl _) (after_sound m)) as P. destruct (pass (after m) ds) as [[r h] e]. apply P, IH, E.
Qed.
(* a constant that becomes ready in a pass: what it uses is ready before its turn *)
Lemma label_uses r e v x : label r e = (Ready v, x) -> forall j, uses e j -> r j <> None.
Proof.
  revert v x. induction e as [u|i|o a IHa b IHb]; intros v x; cbn [label]; intros H j U; inversion U; subst.
  - destruct (r j); [discriminate|]. discriminate.
  - destruct (label r a) as [[u| |] ea]; try (destruct (label r b); discriminate). eapply IHa; eauto.
  - destruct (label r a) as [[u| |] ea]; destruct (label r b) as [[w| |] eb]; try discriminate. eapply IHb; eauto.
Qed.
Lemma pass_turn d : In d ds -> forall l a r, ds = a ++ l -> In d l -> sound ds r -> r (d_id d) = None -> fst (fst (pass r l)) (d_id d) <> None ->
  forall j, uses (d_ex d) j -> (In j (map d_id a) \/ before ds j (d_id d) \/ r j <> None) /\ fst (fst (pass r l)) j <> None.
Proof.
  intro Hd. induction l as [|x l IH]; intros a r E Hl S R F j U; [destruct Hl|]. cbn [pass] in *.
  assert (Hx : In x ds) by (rewrite E; apply in_or_app; right; now left).
  pose proof (labelDef_ok ds r x Hx S) as D. destruct (labelDef r x) as [[r1 h1] e1]. destruct D as (S1 & L1 & K1 & _ & T1).
  assert (Hi : incl l ds) by (intros y Hy; rewrite E; apply in_or_app; right; now right).
  pose proof (pass_ok ds l r1 Hi S1) as P. destruct (pass r1 l) as [[r2 h2] e2] eqn:EP. destruct P as (S2 & L2 & K2 & _). cbn [fst] in *.
  assert (UP : forall y, r y <> None -> r2 y <> None). { intros y Hy. destruct (r y) as [v|] eqn:Ey; [|now elim Hy]. rewrite (L2 _ _ (L1 _ _ Ey)). discriminate. }
  destruct (N.eq_dec (d_id x) (d_id d)) as [Ei|Ei].
  - assert (x = d) by now apply (same_def ds ND). subst x. assert (NI : ~ In (d_id d) (map d_id l)).
    { rewrite E, map_app in ND. cbn in ND. apply NoDup_remove_2 in ND. intro H. apply ND, in_or_app. now right. }
    rewrite (K2 _ NI) in F. destruct (T1 R F) as (v & y & L). pose proof (label_uses _ _ _ _ L j U) as Rj. split; [now right; right | now apply UP].
  - destruct Hl as [->|Hl]; [congruence|]. specialize (IH (a ++ [x]) r1). rewrite EP in IH. cbn [fst] in IH.
    destruct (IH ltac:(now rewrite <- app_assoc) Hl S1 ltac:(rewrite K1; [exact R | congruence]) F j U) as [G1 G2]. split; [|exact G2].
    rewrite map_app in G1. destruct G1 as [G1|[G1|G1]].
    + apply in_app_or in G1. destruct G1 as [G1|[G1|[]]]; [now left|]. right; left. cbn in G1. apply in_split in Hl. destruct Hl as (b & c & ->). exists a, b, c, x, d. rewrite E. auto.
    + now right; left.
    + destruct (N.eq_dec j (d_id x)) as [->|Nj].
      * right; left. apply in_split in Hl. destruct Hl as (b & c & ->). exists a, b, c, x, d. rewrite E. auto.
      * right; right. now rewrite <- (K1 j Nj).
Qed.
Lemma resolve_ranked r : resolve ds = Some r -> exists rk, ranked ds rk /\ forall d, In d ds -> (rk (d_id d) <= S MAX_ITERATIONS)%nat.
Proof.
  intro H. destruct (resolve_ok ds r H) as [_ RA]. destruct (resolve_after r H) as (m & Hm & ->). destruct m as [|m].
  { exists (fun _ => O). split; [|intros; lia]. intros d j Hd. now elim (RA d Hd). }
  set (rk := fun i => first m i 0). exists rk.
  assert (LE : forall i, (rk i <= m)%nat) by (intro i; destruct (first_spec m i 0) as (A & _); unfold rk; lia).
  assert (AT : forall i, after (S m) i <> None -> after (S (rk i)) i <> None).
  { intros i Hi. destruct (first_spec m i 0) as (A & _ & C). fold (rk i) in *. destruct (Nat.eq_dec (rk i) m) as [->|]; [exact Hi | apply C; lia]. }
  assert (PRE : forall i p, (p <= rk i)%nat -> after p i = None).
  { intros i [|p] Hp; [reflexivity|]. destruct (first_spec m i 0) as (_ & B & _). apply B. fold (rk i). lia. }
  assert (BND : forall i p, after (S p) i <> None -> (rk i <= p)%nat).
  { intros i p Hp. destruct (Nat.le_gt_cases (rk i) p) as [G|G]; [exact G|]. elim Hp. now apply PRE. }
  split; [|intros d Hd; specialize (LE (d_id d)); lia].
  intros d j Hd U. set (p := rk (d_id d)).
  pose proof (pass_turn d Hd ds [] (after p) eq_refl Hd (after_sound p) (PRE _ p (Nat.le_refl _)) (AT _ (RA d Hd)) j U) as [T1 T2]. split.
  - intros _. now apply BND.
  - intro NB. destruct T1 as [[]|[T1|T1]]; [now elim NB|]. destruct p as [|p]; [now elim T1|]. apply le_n_S, BND, T1.
Qed.
End Converse.
