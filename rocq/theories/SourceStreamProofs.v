(* SourceStreamProofs.v *)
From Coq Require Import String List NArith ZArith Lia Bool.
From Coq Require Import ZifyBool ZifyNat ZifyN.
From Verif Require Import Base StringPoolModel StringPoolProofs SourceStreamModel SourceStreamSpec.
Import ListNotations.
Ltac Zify.zify_post_hook ::= Z.div_mod_to_equations.
Open Scope N_scope.

(* ---- C10: positions ---- *)
Definition pos_of (l : locator) : position := (l_path l, l_line l, l_byte l).

Lemma newlines_app a b : newlines (a ++ b) = newlines a + newlines b.
Proof. unfold newlines. rewrite count_occ_app. lia. Qed.

Lemma column_snoc s c : column (s ++ [c]) = if c =? 10 then 0 else 1 + column s.
Proof. unfold column. rewrite fold_left_app. reflexivity. Qed.

Lemma newlines_snoc s c : newlines (s ++ [c]) = newlines s + (if c =? 10 then 1 else 0).
Proof.
  rewrite newlines_app. f_equal. unfold newlines. cbn.
  destruct (N.eq_dec c 10) as [->|H]; [reflexivity|]. destruct (N.eqb_spec c 10); [lia|reflexivity].
Qed.

Lemma fits_prefix a b : fits (a ++ b) -> fits a.
Proof.
  intros [Hn Hc]. split.
  - rewrite newlines_app in Hn. lia.
  - intros k. destruct (Nat.le_gt_cases k (List.length a)).
    + specialize (Hc k). rewrite firstn_app in Hc.
      replace (k - List.length a)%nat with 0%nat in Hc by lia. cbn in Hc. rewrite app_nil_r in Hc. exact Hc.
    + rewrite firstn_all2 by lia. specialize (Hc (List.length a)).
      rewrite firstn_app, Nat.sub_diag, firstn_all in Hc. cbn in Hc. rewrite app_nil_r in Hc. exact Hc.
Qed.

Lemma fits_column s : fits s -> column s < 65536.
Proof. intros [_ H]. specialize (H (List.length s)). rewrite firstn_all in H. exact H. Qed.

Lemma loc_after_snoc p s c : loc_after p (s ++ [c]) = updateLineByteNo (loc_after p s) (Z.of_N c).
Proof. unfold loc_after. rewrite fold_left_app. reflexivity. Qed.

Lemma loc_after_pos p s : fits s -> pos_of (loc_after p s) = position_at p s.
Proof.
  induction s as [|c s IH] using rev_ind; intros F.
  - reflexivity.
  - assert (F1 : fits s) by (eapply fits_prefix; eauto).
    specialize (IH F1). rewrite loc_after_snoc.
    pose proof (fits_column _ F) as Fc. destruct F as [Fn _]. destruct F1 as [Fn1 _].
    rewrite column_snoc in Fc. rewrite newlines_snoc in Fn.
    unfold pos_of, position_at in *. rewrite column_snoc, newlines_snoc.
    destruct (loc_after p s) as [lp ll lb]. cbn [l_path l_line l_byte] in IH.
    remember (match s with [] => 0 | _ => 1 + newlines s end) as M eqn:EM. injection IH as -> El Eb. subst M.
    unfold updateLineByteNo. destruct (Z.ltb_spec (Z.of_N c) 0); [lia|].
    replace (match s ++ [c] with [] => 0 | _ :: _ => 1 + (newlines s + (if c =? 10 then 1 else 0)) end)
      with (1 + (newlines s + (if c =? 10 then 1 else 0))) by (destruct s; reflexivity).
    cbn [l_line l_path l_byte].
    assert (Hl : (if ll =? 0 then 1 else ll) = 1 + newlines s).
    { subst ll. destruct s as [|x s]; [reflexivity|]. generalize (newlines (x :: s)). intros m. destruct (N.eqb_spec (1 + m) 0); [exfalso; lia|reflexivity]. }
    rewrite Hl. clear Hl.
    destruct (Z.eqb_spec (Z.of_N c) 10); destruct (N.eqb_spec c 10); try lia; cbn [l_line l_path l_byte];
      unfold u16; f_equal; [f_equal|f_equal|]; lia.
Qed.

Lemma loc_after_path p s : l_path (loc_after p s) = p.
Proof.
  induction s as [|c s IH] using rev_ind; [reflexivity|].
  rewrite loc_after_snoc. unfold updateLineByteNo.
  repeat match goal with |- context [if ?b then _ else _] => destruct b end; auto.
Qed.

(* ---- list facts ---- *)
Lemma Forall2_impl {A B} (P Q : A -> B -> Prop) l m :
  (forall a b, P a b -> Q a b) -> Forall2 P l m -> Forall2 Q l m.
Proof. intros H F. induction F; constructor; auto. Qed.

Lemma nth_set_same {A} n (x : A) l : (n < List.length l)%nat -> nth_error (set_nth n x l) n = Some x.
Proof. revert n; induction l; intros [|n] H; cbn in *; try lia; auto. apply IHl. lia. Qed.

Lemma nth_set_other {A} n m (x : A) l : n <> m -> nth_error (set_nth n x l) m = nth_error l m.
Proof. revert n m; induction l; intros [|n] [|m] H; cbn; auto; try lia. Qed.

Lemma set_nth_length {A} n (x : A) l : List.length (set_nth n x l) = List.length l.
Proof. revert n; induction l; intros [|n]; cbn; auto. Qed.

Lemma mem_In x l : mem x l = true <-> In x l.
Proof.
  unfold mem. rewrite existsb_exists. split.
  - intros (y & Hy & E). apply N.eqb_eq in E. subst. auto.
  - intros H. exists x. rewrite N.eqb_refl. auto.
Qed.

(* registered names: the i-th name has id i+1 *)
Fixpoint regs (k : N) (l : list N) : list (N * N) :=
  match l with [] => [] | f :: r => (f, k) :: regs (k + 1) r end.

Lemma regs_app k l f : regs k (l ++ [f]) = regs k l ++ [(f, k + N.of_nat (List.length l))].
Proof.
  revert k; induction l; intros k; cbn [app regs].
  - cbn. rewrite N.add_0_r. reflexivity.
  - rewrite IHl. cbn [List.length app]. do 4 f_equal. lia.
Qed.

Lemma regs_length k l : List.length (regs k l) = List.length l.
Proof. revert k; induction l; intros; cbn; auto. Qed.

Lemma regs_find k l f id : find_idx f (regs k l) = Some id ->
  k <= id /\ nth_error l (N.to_nat (id - k)) = Some f.
Proof.
  revert k; induction l as [|g l IH]; intros k; cbn [regs find_idx]; [discriminate|].
  destruct (N.eqb_spec f g) as [->|Hn]; intros E.
  - injection E as <-. split; [lia|]. rewrite N.sub_diag. reflexivity.
  - apply IH in E as [E1 E2]. split; [lia|].
    replace (N.to_nat (id - k)) with (S (N.to_nat (id - (k + 1)))) by lia. exact E2.
Qed.

Lemma regs_find_none k l f : ~ In f l -> find_idx f (regs k l) = None.
Proof.
  revert k; induction l as [|g l IH]; intros k H; cbn [regs find_idx]; auto.
  cbn in H. destruct (N.eqb_spec f g); [subst; tauto|]. apply IH. tauto.
Qed.

Lemma regs_find_in k l f : In f l -> exists id, find_idx f (regs k l) = Some id.
Proof.
  revert k; induction l as [|g l IH]; intros k H; cbn [regs find_idx]; [destruct H|].
  destruct (N.eqb_spec f g); [eauto|]. apply IH. destruct H; [congruence|auto].
Qed.

Lemma regs_find_app k l f g id : find_idx f (regs k l) = Some id -> find_idx f (regs k (l ++ [g])) = Some id.
Proof.
  rewrite regs_app. revert k; induction l as [|h l IH]; intros k; cbn [regs find_idx app]; [discriminate|].
  destruct (N.eqb_spec f h); auto. intros E.
  specialize (IH _ E). cbn [List.length].
  replace (k + N.of_nat (S (List.length l))) with (k + 1 + N.of_nat (List.length l)) by lia. exact IH.
Qed.

Lemma regs_inj k l f g id : find_idx f (regs k l) = Some id -> find_idx g (regs k l) = Some id -> f = g.
Proof. intros A B. apply regs_find in A as [_ A], B as [_ B]. congruence. Qed.

(* ---- the simulation ---- *)
Definition frame_ok (fs : N -> option text) (recs : list filerec) (id : N) (x : frame) : Prop :=
  let '(p, d, q) := x in
  fs p = Some (d ++ q) /\
  exists r, nth_error recs (N.to_nat id) = Some r /\
    ((fr_have r = false /\ fr_fp r = Some q /\ fr_loc r = loc_after p d) \/
     (fr_have r = true /\ exists c q', q = c :: q' /\ fr_fp r = Some q' /\ fr_ubyte r = Some (Z.of_N c) /\
        fr_loc r = loc_after p (d ++ [c]))).

Definition path_of (x : frame) : N := fst (fst x).

Record Inv (fs : N -> option text) (s : stream) (st : sst) : Prop := {
  I_reg : s_reg s = regs 1 (seen st);
  I_nd : NoDup (seen st);
  I_len : List.length (s_recs s) = S (List.length (seen st));
  I_ids : Forall2 (fun id x => find_idx (path_of x) (s_reg s) = Some id) (s_stack s) (frames st);
  I_fr : Forall2 (frame_ok fs (s_recs s)) (s_stack s) (frames st);
  I_open : NoDup (map path_of (frames st));
  I_can : can st = true -> forall p d q r, frames st = (p, d, q) :: r ->
    exists id stk rc c d', s_stack s = id :: stk /\ nth_error (s_recs s) (N.to_nat id) = Some rc /\
      fr_have rc = false /\ fr_ubyte rc = Some (Z.of_N c) /\ d = d' ++ [c];
  I_closed : forall f id, find_idx f (s_reg s) = Some id -> ~ In f (map path_of (frames st)) ->
    exists r content, nth_error (s_recs s) (N.to_nat id) = Some r /\ fs f = Some content /\
      fr_loc r = loc_after f content
}.

Lemma id_range fs s st id x : Inv fs s st -> find_idx (path_of x) (s_reg s) = Some id ->
  1 <= id /\ (N.to_nat id < List.length (s_recs s))%nat.
Proof.
  intros I E. rewrite (I_reg _ _ _ I) in E. apply regs_find in E as [E1 E2].
  split; auto. rewrite (I_len _ _ _ I).
  assert (nth_error (seen st) (N.to_nat (id - 1)) <> None) by congruence.
  apply nth_error_Some in H. lia.
Qed.

Lemma frames_set fs recs ids frs k r reg :
  Forall2 (frame_ok fs recs) ids frs ->
  Forall2 (fun id x => find_idx (path_of x) reg = Some id) ids frs ->
  (forall id x, In x frs -> find_idx (path_of x) reg = Some id -> id <> k) ->
  Forall2 (frame_ok fs (set_nth (N.to_nat k) r recs)) ids frs.
Proof.
  intros H1 H2 Hk. induction H1; constructor.
  - inversion H2; subst. specialize (Hk x y (or_introl eq_refl) H5).
    destruct y as [[p d] q]. destruct H as (Hfs & rc & E & R). split; auto. exists rc. split; auto.
    rewrite nth_set_other; auto. lia.
  - inversion H2; subst. apply IHForall2; auto. intros. eapply Hk; eauto. right; auto.
Qed.

(* other open files have other ids *)
Lemma other_ids fs s st p d q fr id : Inv fs s st -> frames st = (p, d, q) :: fr ->
  find_idx p (s_reg s) = Some id ->
  forall id' x, In x fr -> find_idx (path_of x) (s_reg s) = Some id' -> id' <> id.
Proof.
  intros I E Hid id' x Hx Hx' ->.
  pose proof (I_open _ _ _ I) as ND. rewrite E in ND. cbn in ND. inversion ND; subst.
  apply H1. rewrite (I_reg _ _ _ I) in *.
  assert (path_of x = p) by (eapply regs_inj; eauto). subst p. apply in_map. auto.
Qed.

Definition lastdrop (l : locator) (dr : list frame) : locator :=
  fold_left (fun _ x => loc_after (fst (fst x)) (snd (fst x))) dr l.

Lemma Z_of_N_neg1 c : (Z.of_N c =? -1)%Z = false.
Proof. lia. Qed.

Lemma next_top_in frs dr p d q rest c : next frs = (dr, (p, d, q) :: rest, c) -> In p (map path_of frs).
Proof.
  revert dr. induction frs as [|[[p2 d2] q2] frs IHf]; intros dr En; cbn in En; [discriminate|].
  destruct q2.
  - destruct (next frs) as [[dr2 l2] c2]. injection En as <- -> <-. right. eapply IHf; eauto.
  - injection En as <- <- _ _ _ _. left. reflexivity.
Qed.

Lemma read_sim fs : forall fuel s st, Inv fs s st -> (List.length (s_stack s) < fuel)%nat ->
  forall dr fr c, next (frames st) = (dr, fr, c) -> forall x y,
  exists s', read_fuel fuel s = Some (s', Some (match c with Some b => Z.of_N b | None => -1 end)%Z) /\
    Inv fs s' (mkSst fr (seen st) true x y) /\
    s_reg s' = s_reg s /\ s_stack s' = skipn (List.length dr) (s_stack s) /\
    (forall b, c = Some b -> exists p d q rest id stk r r', fr = (p, d ++ [b], q) :: rest /\
       s_stack s' = id :: stk /\
       nth_error (s_recs s) (N.to_nat id) = Some r /\ nth_error (s_recs s') (N.to_nat id) = Some r' /\
       fr_loc r' = loc_after p (d ++ [b]) /\ fr_have r' = false /\
       (if fr_have r then fr_uloc r' = fr_uloc r /\ s_lastLoc s' = lastdrop (s_lastLoc s) dr
        else fr_uloc r' = lastdrop (s_lastLoc s) dr /\ s_lastLoc s' = fr_loc r')) /\
    (c = None -> fr = []) /\
    (forall id r', nth_error (s_recs s') (N.to_nat id) = Some r' ->
       exists r, nth_error (s_recs s) (N.to_nat id) = Some r /\ (fr_have r' = true -> fr_have r = true)).
Proof.
  induction fuel as [|fuel IH]; intros s st I Hf dr fr c Hn x y; [lia|].
  cbn [read_fuel].
  pose proof (I_ids _ _ _ I) as Hids. pose proof (I_fr _ _ _ I) as Hfr.
  destruct (frames st) as [|[[p d] q] frs] eqn:Efr.
  - inversion Hids as [E|]. rewrite <- E in *.
    cbn in Hn. injection Hn as <- <- <-. exists s. split; [reflexivity|].
    split.
    { destruct I. constructor; cbn; auto.
      - rewrite <- E; auto.
      - rewrite <- E; auto.
      - constructor.
      - intros; discriminate.
      - rewrite Efr in I_closed0. exact I_closed0. }
    split; auto. split; [rewrite <- E; reflexivity|].
    split; [intros; discriminate|]. split; auto. intros id r' Hr. exists r'. auto.
  - inversion Hids as [|id ? stk ? Hid Hids' Es]. subst. rewrite <- Es in *.
    inversion Hfr as [|? ? ? ? Hok Hfr']. subst.
    cbn in Hid.
    destruct (id_range _ _ _ _ (p, d, q) I Hid) as [Hid1 Hid2].
    destruct Hok as (Hfs & r & Hr & R).
    unfold getrec. rewrite Hr.
    destruct R as [(Hh & Hfp & Hl)|(Hh & c0 & q' & -> & Hfp & Hub & Hl)]; rewrite Hh.
    + rewrite Hfp.
      assert (Hother := other_ids _ _ _ _ _ _ _ _ I Efr Hid).
      destruct q as [|b q].
      * (* used up *)
        destruct (N.eqb_spec id 0); [lia|].
        unfold updateLineOfText. change (char_of (-1)%Z) with 255. cbn [N.eqb Pos.eqb].
        cbn [next] in Hn. destruct (next frs) as [[dr1 l1] c1] eqn:En. injection Hn as <- <- <-.
        change (updateLineByteNo (fr_loc r) (-1)) with (fr_loc r). cbn [Z.eqb Pos.eqb].
        unfold discardTop. cbn [s_stack]. unfold getrec. cbn [s_recs].
        rewrite nth_set_same by auto. cbn [s_reg s_recs s_lastB s_lastLoc s_lines fr_loc fr_uloc fr_ubyte fr_have fr_ver fr_line].
        rewrite Hl.
        set (s2 := mkS _ _ _ _ _ _).
        assert (I2 : Inv fs s2 (mkSst frs (seen st) false None None)).
        { constructor; cbn.
          - apply I.
          - apply I.
          - rewrite !set_nth_length. apply I.
          - exact Hids'.
          - eapply frames_set; [eapply frames_set; [exact Hfr'|exact Hids'|]|exact Hids'|]; exact Hother.
          - pose proof (I_open _ _ _ I) as ND. rewrite Efr in ND. inversion ND; auto.
          - discriminate.
          - intros f id' Hf' Hni. destruct (N.eq_dec id' id) as [->|Hne].
            + assert (f = p) by (rewrite (I_reg _ _ _ I) in *; eapply regs_inj; eauto). subst f.
              rewrite app_nil_r in Hfs.
              eexists _, d. split; [apply nth_set_same; rewrite set_nth_length; auto|]. auto.
            + rewrite !nth_set_other by lia. eapply I_closed; eauto.
              rewrite Efr. cbn. intros [<-|Hin]; auto. unfold path_of in *. cbn in *. congruence. }
        cbn [List.length] in Hf.
        edestruct (IH s2 _ I2 ltac:(cbn [s2 s_stack]; lia) dr1 l1 c1 En x y)
          as (s' & E1 & I' & E2 & E3 & E4 & E5 & E6).
        exists s'. split; [exact E1|]. split; [exact I'|]. split; [exact E2|]. split; [exact E3|].
        split; [|split; [exact E5|]].
        { intros b Hb. destruct (E4 b Hb) as (p1 & d1 & q1 & rest1 & id1 & stk1 & r1 & r1' & F1 & F2 & F3 & F4 & F5 & F6 & F7).
          cbn [s2 s_recs] in F3.
          assert (Hne : id1 <> id).
          { intros ->. destruct I'. cbn in I_ids0. rewrite F1, F2 in I_ids0. inversion I_ids0; subst.
            cbn in H2. rewrite E2 in H2. cbn [s2 s_reg] in H2.
            assert (In p1 (map path_of frs)).
            { eapply next_top_in. exact En. }
            apply in_map_iff in H as (x1 & Hx1 & Hx2).
            eapply Hother; eauto. rewrite Hx1. exact H2. }
          rewrite !nth_set_other in F3 by lia.
          exists p1, d1, q1, rest1, id1, stk1, r1, r1'. repeat (split; [assumption|]). exact F7. }
        { intros id' r' Hr'. destruct (E6 _ _ Hr') as (r1 & G1 & G2). cbn [s2 s_recs] in G1.
          destruct (N.eq_dec id' id) as [->|Hne].
          - rewrite nth_set_same in G1 by (rewrite set_nth_length; auto). injection G1 as <-.
            cbn [fr_have] in G2. exists r. split; auto. intros H. specialize (G2 H). discriminate.
          - rewrite !nth_set_other in G1 by lia. eauto. }
      * (* a byte of the file *)
        destruct (N.eqb_spec id 0); [lia|].
        cbn [next] in Hn. injection Hn as <- <- <-.
        destruct (updateLineOfText r (Z.of_N b) (s_lines s)) as [lt lines].
        rewrite Z_of_N_neg1. rewrite Hl, <- loc_after_snoc.
        set (r' := mkRec _ _ _ _ _ _ _). set (s2 := mkS _ _ _ _ _ _).
        exists s2. split; [reflexivity|]. split; [|split; [reflexivity|split; [cbn; rewrite Es; reflexivity|split]]].
        { constructor; cbn.
          - apply I.
          - apply I.
          - rewrite set_nth_length. apply I.
          - try rewrite <- Es. constructor; auto.
          - try rewrite <- Es. constructor.
            + split; [rewrite <- app_assoc; exact Hfs|]. exists r'. rewrite nth_set_same by auto.
              split; auto.
            + eapply frames_set; eauto.
          - pose proof (I_open _ _ _ I) as ND. rewrite Efr in ND. exact ND.
          - intros _ p1 d1 q1 r1 E. injection E as <- <- <- <-.
            exists id, stk, r', b, d. rewrite nth_set_same by auto. auto.
          - intros f id' Hf' Hni. rewrite nth_set_other.
            + eapply I_closed; eauto. rewrite Efr. exact Hni.
            + intros E. assert (id' = id) by lia. subst id'. apply Hni. left.
              rewrite (I_reg _ _ _ I) in *. eapply regs_inj; eauto. }
        { intros b1 Eb. injection Eb as <-. exists p, d, q, frs, id, stk, r, r'.
          cbn [s2 s_stack s_recs s_lastLoc]. rewrite nth_set_same by auto. rewrite Hh.
          repeat split; auto. }
        split; [discriminate|].
        intros id' r1 Hr1. cbn [s2 s_recs] in Hr1. destruct (N.eq_dec id' id) as [->|Hne].
        { rewrite nth_set_same in Hr1 by auto. injection Hr1 as <-. exists r. split; auto. cbn. discriminate. }
        { rewrite nth_set_other in Hr1 by lia. eauto. }
    + (* pushed back byte *)
      assert (Hother := other_ids _ _ _ _ _ _ _ _ I Efr Hid).
      cbn [next] in Hn. injection Hn as <- <- <-. rewrite Hub.
      set (s2 := setrec _ _ _). exists s2. split; [reflexivity|].
      split; [|split; [reflexivity|split; [cbn; rewrite Es; reflexivity|split]]].
      { constructor; cbn.
        - apply I.
        - apply I.
        - rewrite set_nth_length. apply I.
        - try rewrite <- Es. constructor; auto.
        - try rewrite <- Es. constructor.
          + split; [rewrite <- app_assoc; exact Hfs|]. eexists. rewrite nth_set_same by auto.
            split; [reflexivity|]. left. cbn. auto.
          + eapply frames_set; eauto.
        - pose proof (I_open _ _ _ I) as ND. rewrite Efr in ND. exact ND.
        - intros _ p1 d1 q1 r1 E. injection E as <- <- <- <-.
          eexists id, stk, _, c0, d. rewrite nth_set_same by auto. cbn. auto.
        - intros f id' Hf' Hni. rewrite nth_set_other.
          + eapply I_closed; eauto. rewrite Efr. exact Hni.
          + intros E. assert (id' = id) by lia. subst id'. apply Hni. left.
            rewrite (I_reg _ _ _ I) in *. eapply regs_inj; eauto. }
      { intros b1 Eb. injection Eb as <-. eexists p, d, q', frs, id, stk, r, (set_have r false).
        cbn [s2 setrec s_stack s_recs s_lastLoc]. rewrite nth_set_same by auto. rewrite Hh.
        cbn. rewrite <- ?Es. repeat split; auto. }
      split; [discriminate|].
      intros id' r1 Hr1. cbn [s2 setrec s_recs] in Hr1. destruct (N.eq_dec id' id) as [->|Hne].
      { rewrite nth_set_same in Hr1 by auto. injection Hr1 as <-. exists r. split; auto. }
      { rewrite nth_set_other in Hr1 by lia. eauto. }
Qed.

Definition conv_op (o : sop) : op :=
  match o with SpRead => ORead | SpUnread => OUnread | SpPush f once => OPush f once end.
Definition conv_res (r : sres) : result :=
  match r with
  | SpByte c => RByte (Some (match c with Some b => Z.of_N b | None => -1 end)%Z)
  | SpUnit => RUnit
  | SpPushed b => RPush b
  end.

Definition knows (o : option position) (l : locator) : Prop := forall x, o = Some x -> pos_of l = x.

Definition end_of_first (fs : N -> option text) (sn : list N) : option position :=
  match sn with
  | [] => Some (0, 0, 0)
  | f :: _ => match fs f with Some t => Some (position_at f t) | None => None end
  end.

Record Ext (fs : N -> option text) (s : stream) (st : sst) (pb : bool) : Prop := {
  E_tail : Forall (fun id => forall r, nth_error (s_recs s) (N.to_nat id) = Some r -> fr_have r = false)
             (tl (s_stack s));
  E_top : forall p d q fr, frames st = (p, d, q) :: fr ->
    exists id stk r, s_stack s = id :: stk /\ nth_error (s_recs s) (N.to_nat id) = Some r /\ fr_have r = pb /\
      (pb = true -> knows (cur st) (fr_uloc r) /\ prev st = cur st /\ s_lastLoc s = fr_loc r) /\
      (pb = false -> d = [] -> knows (cur st) (s_lastLoc s)) /\
      (pb = false -> d <> [] -> cur st = Some (position_at p d) /\ s_lastLoc s = fr_loc r /\
         knows (prev st) (fr_uloc r));
  E_empty : frames st = [] -> pb = false /\ cur st = end_of_first fs (seen st) /\
    (seen st = [] -> s_recs s = [rec_null] /\ s_lastLoc s = loc_init 0)
}.

Lemma frames_seen fs s st p d q fr : Inv fs s st -> frames st = (p, d, q) :: fr -> In p (seen st).
Proof.
  intros I E. pose proof (I_ids _ _ _ I) as H. rewrite E in H. inversion H; subst. cbn in H3.
  rewrite (I_reg _ _ _ I) in H3. apply regs_find in H3 as [_ H3]. eapply nth_error_In; eauto.
Qed.

Lemma lastdrop_snoc l dr x : lastdrop l (dr ++ [x]) = loc_after (fst (fst x)) (snd (fst x)).
Proof. unfold lastdrop. rewrite fold_left_app. reflexivity. Qed.

Definition all_fit (fs : N -> option text) : Prop := forall f t, fs f = Some t -> fits t.

Lemma never_read_false p d : fits d -> d <> [] -> hasNeverBeenRead (loc_after p d) = false.
Proof.
  intros F H. pose proof (loc_after_pos p d F) as LP. apply (f_equal (fun x => snd (fst x))) in LP.
  unfold pos_of, position_at in LP. cbn [fst snd] in LP. unfold hasNeverBeenRead. rewrite LP.
  destruct d as [|c d]; [congruence|]. destruct (N.eqb_spec (1 + newlines (c :: d)) 0); [lia|reflexivity].
Qed.

Lemma ext_locator fs s st pb : all_fit fs -> Inv fs s st -> Ext fs s st pb ->
  forall x, cur st = Some x -> exists l, getLocator s = Some l /\ pos_of l = x.
Proof.
  intros HF I E x Hx. unfold getLocator.
  destruct (frames st) as [|[[p d] q] fr] eqn:Ef.
  - pose proof (I_ids _ _ _ I) as H. rewrite Ef in H. inversion H.
    destruct (E_empty _ _ _ _ E Ef) as (Epb & Ec & En). rewrite Ec in Hx.
    destruct (seen st) as [|f sn] eqn:Es.
    + destruct (En eq_refl) as [-> _]. cbn. injection Hx as <-. eexists; split; reflexivity.
    + cbn in Hx. assert (Hid : find_idx f (s_reg s) = Some 1).
      { rewrite (I_reg _ _ _ I), Es. cbn. rewrite N.eqb_refl. reflexivity. }
      destruct (I_closed _ _ _ I f 1 Hid) as (r & ct & Hr & Hfs & Hl).
      { rewrite Ef. auto. }
      rewrite Hfs in Hx. injection Hx as <-.
      destruct (s_recs s) as [|r0 [|r1 rs]]; cbn in Hr; try discriminate. injection Hr as ->.
      exists (fr_loc r). split; auto. rewrite Hl. apply loc_after_pos. eauto.
  - destruct (E_top _ _ _ _ E _ _ _ _ Ef) as (id & stk & r & Es & Hr & Hh & E1 & E2 & E3).
    pose proof (I_fr _ _ _ I) as H. rewrite Ef, Es in H. inversion H; subst.
    destruct H3 as (Hfs & r' & Hr' & R). rewrite Hr in Hr'. injection Hr' as <-.
    rewrite Es. unfold getrec. rewrite Hr.
    assert (Fd : fits d) by (eapply fits_prefix; eauto).
    destruct R as [(Rh & Rfp & Rl)|(Rh & c & q' & -> & Rfp & Rb & Rl)]; rewrite Rfp; rewrite Rh in *.
    + destruct (list_eq_dec N.eq_dec d []) as [->|Hd].
      * rewrite Rl. cbn. eexists; split; [reflexivity|]. apply E2; auto.
      * destruct (E3 eq_refl Hd) as (Ec & _). rewrite Ec in Hx. injection Hx as <-.
        rewrite Rl. pose proof (loc_after_pos p d Fd) as LP.
        rewrite never_read_false by auto.
        cbn. eexists; split; [reflexivity|]. exact LP.
    + destruct (E1 eq_refl) as (Ek & _). rewrite Rl.
      assert (Fc : fits (d ++ [c])).
      { eapply fits_prefix. rewrite <- app_assoc. eapply HF. exact Hfs. }
      rewrite never_read_false; auto; [|destruct d; discriminate].
      cbn. eexists; split; [reflexivity|]. apply Ek; auto.
Qed.

Lemma next_shape frs dr fr c : next frs = (dr, fr, c) ->
  exists fr0, frs = dr ++ fr0 /\ Forall (fun x => snd x = []) dr /\
    match c with
    | None => fr0 = [] /\ fr = []
    | Some b => exists p d q r, fr0 = (p, d, b :: q) :: r /\ fr = (p, d ++ [b], q) :: r
    end.
Proof.
  revert dr. induction frs as [|[[p d] q] frs IH]; intros dr E; cbn in E.
  - injection E as <- <- <-. exists []. auto.
  - destruct q as [|b q].
    + destruct (next frs) as [[dr1 l1] c1] eqn:En. injection E as <- <- <-.
      destruct (IH _ eq_refl) as (fr0 & -> & HF & H). exists fr0. split; auto.
    + injection E as <- <- <-. exists ((p, d, b :: q) :: frs). split; auto. split; auto.
      exists p, d, q, frs. auto.
Qed.

Lemma read_step fs strict s st pb st1 pb1 res : (strict = true -> all_fit fs) ->
  Inv fs s st -> (strict = true -> Ext fs s st pb) ->
  sp_step fs strict st pb SpRead = Some (st1, pb1, res) ->
  exists s1, step fs s ORead = Some (s1, conv_res res) /\ Inv fs s1 st1 /\ seen st1 = seen st /\
    (strict = true -> Ext fs s1 st1 pb1).
Proof.
  intros HF I HE H. unfold step, read. cbn [sp_step] in H.
  destruct (next (frames st)) as [[dr fr] c] eqn:En.
  destruct (read_sim fs (S (List.length (s_stack s))) s st I ltac:(lia) dr fr c En (cur st1) (prev st1))
    as (s1 & E1 & I1 & E2 & E3 & E4 & E5 & E6).
  exists s1. rewrite E1.
  destruct (next_shape _ _ _ _ En) as (fr0 & Ef & Fdr & Sh).
  destruct c as [b|].
  - injection H as <- <- <-. cbn [cur prev] in I1. split; [reflexivity|]. split; [exact I1|]. split; [reflexivity|].
    intros Hs. specialize (HF Hs). specialize (HE Hs).
    destruct Sh as (p & d & q & rr & -> & ->).
    destruct (E4 b eq_refl) as (p1 & d1 & q1 & rest & id & stk & r & r' & F1 & F2 & F3 & F4 & F5 & F6 & F7).
    injection F1 as <- Ed <- <-. apply app_inj_tail in Ed as [<- _].
    constructor; cbn [frames cur prev seen].
    + rewrite F2. cbn [tl]. pose proof (E_tail _ _ _ _ HE) as T.
      apply Forall_forall. intros id' Hin r1 Hr1.
      destruct (E6 _ _ Hr1) as (r2 & G1 & G2).
      destruct (fr_have r1) eqn:Eh; auto. rewrite Forall_forall in T.
      exfalso. assert (Hin3 : In id' (tl (s_stack s))).
      { rewrite F2 in E3. assert (Hin2 : In id' (tl (skipn (List.length dr) (s_stack s)))) by (rewrite <- E3; exact Hin).
        clear - Hin2. destruct (s_stack s) as [|a l]; [destruct dr; destruct Hin2|].
        destruct dr; cbn in *; auto. revert dr Hin2. induction l as [|a' l IHl]; intros dr Hin2.
        * destruct dr; destruct Hin2.
        * destruct dr; cbn in *; auto. right. eapply IHl. eauto. }
      specialize (G2 eq_refl). rewrite (T id' Hin3 r2 G1) in G2. discriminate.
    + intros p2 d2 q2 fr2 E. injection E as <- <- <- <-.
      exists id, stk, r'. split; auto. split; auto. split; auto.
      split; [discriminate|]. split; [intros _ Hd; destruct d; discriminate|].
      intros _ _. split; [reflexivity|].
      destruct dr as [|x dr].
      * cbn [lastdrop fold_left] in F7. cbn [app] in Ef.
        destruct (E_top _ _ _ _ HE _ _ _ _ Ef) as (id0 & stk0 & r0 & G1 & G2 & G3 & G4 & G5 & G6).
        assert (id0 = id) by (rewrite F2 in E3; cbn in E3; congruence). subst id0.
        rewrite F3 in G2. injection G2 as <-. rewrite G3 in F7.
        destruct pb.
        -- destruct (G4 eq_refl) as (K1 & K2 & K3). destruct F7 as [-> ->]. split; [|rewrite K2; exact K1].
           rewrite F5, K3. pose proof (I_fr _ _ _ I) as IF. rewrite Ef, G1 in IF. inversion IF; subst.
           destruct H2 as (_ & rx & Hrx & [(Hc & _)|(_ & c0 & q' & Eq & _ & _ & Hl)]).
           ++ congruence.
           ++ injection Eq as <- <-. rewrite F3 in Hrx. injection Hrx as <-. exact Hl.
        -- destruct F7 as [-> ->]. split; [reflexivity|].
           intros y Hy. destruct (list_eq_dec N.eq_dec d []) as [Hd|Hd].
           ++ apply (G5 eq_refl Hd); auto.
           ++ destruct (G6 eq_refl Hd) as (K1 & K2 & K3).
              rewrite K2. rewrite K1 in Hy. injection Hy as <-.
              pose proof (I_fr _ _ _ I) as IF. rewrite Ef, G1 in IF. inversion IF; subst.
              destruct H2 as (Hfs & rx & Hrx & [(_ & _ & Hl)|(Hc & _)]).
              ** rewrite F3 in Hrx. injection Hrx as <-. rewrite Hl. apply loc_after_pos.
                 eapply fits_prefix; eauto.
              ** congruence.
      * (* files were dropped: the new top is below the old one, so it carries no pushed back byte *)
        assert (Hh : fr_have r = false).
        { pose proof (E_tail _ _ _ _ HE) as T. rewrite Forall_forall in T. apply (T id); auto.
          rewrite F2 in E3. clear - E3. destruct (s_stack s) as [|a l]; cbn in *; [discriminate|].
          clear a x. revert dr E3. induction l as [|a l IHl]; intros dr E3; destruct dr; cbn in *; try discriminate.
          - injection E3 as -> _. auto.
          - right. eapply IHl; eauto. }
        rewrite Hh in F7. destruct F7 as [-> ->]. split; [reflexivity|].
        destruct x as [[px dx] qx]. destruct dr as [|x2 dr].
        -- destruct dx as [|cx dx]; [intros y Hy; discriminate|].
           intros y Hy.
           cbn [app] in Ef.
           destruct (E_top _ _ _ _ HE _ _ _ _ Ef) as (id0 & stk0 & r0 & G1 & G2 & G3 & G4 & G5 & G6).
           assert (Hq : qx = []) by (inversion Fdr; auto). subst qx.
           pose proof (I_fr _ _ _ I) as IF. rewrite Ef, G1 in IF. inversion IF as [|? ? ? ? Hok]; subst.
           destruct Hok as (Hfs & rx & Hrx & [(Hc & _ & Hl)|(_ & c0 & q' & Eq & _)]); [|discriminate].
           rewrite G2 in Hrx. injection Hrx as <-. rewrite Hc in *.
           destruct (G6 eq_refl ltac:(discriminate)) as (K1 & K2 & K3).
           rewrite K1 in Hy. injection Hy as <-.
           unfold lastdrop. cbn [fold_left fst snd]. apply loc_after_pos. eapply fits_prefix; eauto.
        -- intros y Hy. discriminate.
    + discriminate.
  - injection H as <- <- <-. cbn [cur prev] in I1. destruct Sh as [-> ->]. rewrite app_nil_r in Ef.
    split; [reflexivity|]. split; [exact I1|]. split; [reflexivity|].
    intros Hs. specialize (HF Hs). specialize (HE Hs).
    assert (Es1 : s_stack s1 = []).
    { pose proof (I_ids _ _ _ I1) as IF. cbn in IF. inversion IF. auto. }
    constructor; cbn [frames cur prev seen].
    + rewrite Es1. constructor.
    + discriminate.
    + intros _. split; auto. split; [reflexivity|]. intros Hse.
      assert (Hf : frames st = []).
      { destruct (frames st) as [|[[p d] q] ff] eqn:Eff; auto.
        pose proof (frames_seen _ _ _ _ _ _ _ I Eff) as Hin. rewrite Hse in Hin. destruct Hin. }
      destruct (E_empty _ _ _ _ HE Hf) as (_ & _ & K). specialize (K Hse).
      pose proof (I_ids _ _ _ I) as IF. rewrite Hf in IF. inversion IF as [Hs0|].
      rewrite <- Hs0 in E1. cbn in E1. rewrite <- Hs0 in E1. injection E1 as <-. exact K.
Qed.

Lemma unread_step fs strict s st pb st1 pb1 res :
  Inv fs s st -> (strict = true -> Ext fs s st pb) ->
  sp_step fs strict st pb SpUnread = Some (st1, pb1, res) ->
  exists s1, step fs s OUnread = Some (s1, conv_res res) /\ Inv fs s1 st1 /\ seen st1 = seen st /\
    (strict = true -> Ext fs s1 st1 pb1).
Proof.
  intros I HE H. unfold step, unread. cbn [sp_step] in H.
  destruct (can st) eqn:Ec; [|discriminate].
  destruct (frames st) as [|[[p d] q] fr] eqn:Ef.
  - injection H as <- <- <-. pose proof (I_ids _ _ _ I) as IF. rewrite Ef in IF. inversion IF as [Es|].
    exists s. split; [reflexivity|]. split; [|split; [reflexivity|]].
    + destruct I. constructor; cbn; auto; try rewrite <- Es; auto; try constructor; try discriminate.
      rewrite Ef in I_closed0. exact I_closed0.
    + intros Hs. specialize (HE Hs). constructor; cbn.
      * rewrite <- Es. constructor.
      * discriminate.
      * intros _. apply (E_empty _ _ _ _ HE Ef).
  - injection H as <- <- <-.
    destruct (I_can _ _ _ I Ec _ _ _ _ Ef) as (id & stk & rc & c & d' & Es & Hr & Hh & Hb & ->).
    pose proof (I_ids _ _ _ I) as IF. rewrite Ef, Es in IF. inversion IF; subst. cbn in H2.
    destruct (id_range _ _ _ _ (p, d' ++ [c], q) I H2) as [Hid1 Hid2].
    pose proof (I_fr _ _ _ I) as IR. rewrite Ef, Es in IR. inversion IR; subst.
    destruct H3 as (Hfs & rx & Hrx & R). rewrite Hr in Hrx. injection Hrx as <-.
    destruct R as [(_ & Hfp & Hl)|(Hc & _)]; [|congruence].
    rewrite Es. unfold getrec. rewrite Hr.
    unfold putback. rewrite removelast_last, last_last.
    exists (setrec s id (set_have rc true)). split; [reflexivity|]. split; [|split; [reflexivity|]].
    + constructor; cbn.
      * apply I.
      * apply I.
      * rewrite set_nth_length. apply I.
      * rewrite Es. constructor; auto.
      * rewrite Es. constructor.
        -- split; [rewrite <- app_assoc in Hfs; exact Hfs|]. exists (set_have rc true).
           rewrite nth_set_same by auto. split; auto. right. split; auto. exists c, q. auto.
        -- eapply frames_set; eauto. eapply other_ids; eauto.
      * pose proof (I_open _ _ _ I) as ND. rewrite Ef in ND. exact ND.
      * discriminate.
      * intros f id' Hf' Hni. rewrite nth_set_other.
        -- eapply I_closed; eauto. rewrite Ef. exact Hni.
        -- intros E. assert (id' = id) by lia. subst id'. apply Hni. left.
           rewrite (I_reg _ _ _ I) in *. eapply regs_inj; eauto.
    + intros Hs. specialize (HE Hs). constructor; cbn [frames cur prev seen setrec s_stack s_recs s_lastLoc].
      * pose proof (E_tail _ _ _ _ HE) as T. rewrite Es in *. cbn [tl] in *.
        rewrite Forall_forall in *. intros id' Hin r1 Hr1.
        assert (Hne : id' <> id).
        { intros ->. pose proof (other_ids _ _ _ _ _ _ _ _ I Ef H2) as O.
          clear - O H4 Hin.
          revert O Hin. induction H4; intros O Hin; [destruct Hin|].
          destruct Hin as [->|Hin].
          - eapply O; [left; reflexivity|exact H|reflexivity].
          - apply IHForall2; auto. intros. eapply O; eauto. right; auto. }
        rewrite nth_set_other in Hr1 by lia. eapply T; eauto.
      * intros p2 d2 q2 fr2 E. injection E as <- <- <- <-.
        exists id, stk, (set_have rc true). rewrite Es, nth_set_same by auto.
        split; auto. split; auto. split; auto. split; [|split; discriminate].
        intros _.
        destruct (E_top _ _ _ _ HE _ _ _ _ Ef) as (id0 & stk0 & r0 & G1 & G2 & G3 & G4 & G5 & G6).
        rewrite Es in G1. injection G1 as <- <-. rewrite Hr in G2. injection G2 as <-. rewrite Hh in G3. subst pb.
        destruct (G6 eq_refl ltac:(destruct d'; discriminate)) as (K1 & K2 & K3).
        cbn. auto.
      * discriminate.
Qed.

Lemma push_step fs strict s st pb f once st1 pb1 res : (strict = true -> all_fit fs) -> N.of_nat (List.length (seen st)) < 65535 ->
  Inv fs s st -> (strict = true -> Ext fs s st pb) ->
  sp_step fs strict st pb (SpPush f once) = Some (st1, pb1, res) ->
  exists s1, step fs s (OPush f once) = Some (s1, conv_res res) /\ Inv fs s1 st1 /\
    (List.length (seen st1) <= S (List.length (seen st)))%nat /\
    (strict = true -> Ext fs s1 st1 pb1).
Proof.
  intros HF HB I HE H. unfold step, push. cbn [sp_step] in H.
  assert (HP : isPushed s f = mem f (seen st)).
  { unfold isPushed. rewrite (I_reg _ _ _ I). destruct (mem f (seen st)) eqn:Em.
    - apply mem_In in Em. apply (regs_find_in 1) in Em as [id ->]. reflexivity.
    - rewrite regs_find_none; auto. intros Hin. apply mem_In in Hin. congruence. }
  rewrite HP. destruct (once && mem f (seen st)).
  { injection H as <- <- <-. exists s. split; [reflexivity|]. split; [exact I|]. split; [lia|exact HE]. }
  destruct (fs f) as [content|] eqn:Efs.
  2: { injection H as <- <- <-. exists s. split; [reflexivity|]. split; [exact I|]. split; [lia|exact HE]. }
  destruct (is_open f st) eqn:Eo; [discriminate|].
  assert (Hno : ~ In f (map path_of (frames st))).
  { intros Hin. apply mem_In in Hin. change (is_open f st) with (mem f (map path_of (frames st))) in Eo. congruence. }
  destruct (strict && _) eqn:Est; [discriminate|]. injection H as <- <- <-.
  assert (HX : forall s1 id,
     s_stack s1 = id :: s_stack s -> s_lastLoc s1 = s_lastLoc s ->
     nth_error (s_recs s1) (N.to_nat id) = Some (rec_open f content) ->
     (forall id', In id' (s_stack s) -> nth_error (s_recs s1) (N.to_nat id') = nth_error (s_recs s) (N.to_nat id')) ->
     forall sn, strict = true ->
     Ext fs s1 (mkSst ((f, [], content) :: frames st) sn false (cur st) None) false).
  { intros s1 id Q1 Q2 Q3 Q4 sn Hs. specialize (HE Hs). subst strict. cbn [andb] in Est.
    apply orb_false_iff in Est as [Epb Eroot]. subst pb.
    constructor; cbn [frames cur prev seen].
    - rewrite Q1. cbn [tl]. rewrite Forall_forall. intros id' Hin r Hr. rewrite Q4 in Hr by auto.
      pose proof (E_tail _ _ _ _ HE) as T. rewrite Forall_forall in T.
      destruct (frames st) as [|[[p d] q] fr] eqn:Ef.
      + pose proof (I_ids _ _ _ I) as IF. rewrite Ef in IF. inversion IF as [Es|]. rewrite <- Es in Hin. destruct Hin.
      + destruct (E_top _ _ _ _ HE _ _ _ _ Ef) as (id0 & stk0 & r0 & G1 & G2 & G3 & _).
        rewrite G1 in *. destruct Hin as [<-|Hin]; [congruence|]. eapply T; eauto.
    - intros p d q fr E. injection E as <- <- <- <-. exists id, (s_stack s), (rec_open f content).
      split; auto. split; auto. split; auto. split; [discriminate|]. split; [|congruence].
      intros _ _. rewrite Q2. destruct (frames st) as [|[[p d] q] fr] eqn:Ef.
      + destruct (seen st) as [|g sn'] eqn:Esn; [|discriminate].
        destruct (E_empty _ _ _ _ HE Ef) as (_ & Ec & K). rewrite Esn in *. destruct (K eq_refl) as [_ ->].
        rewrite Ec. intros x Hx. injection Hx as <-. reflexivity.
      + destruct (E_top _ _ _ _ HE _ _ _ _ Ef) as (id0 & stk0 & r0 & G1 & G2 & G3 & G4 & G5 & G6).
        destruct (list_eq_dec N.eq_dec d []) as [Hd|Hd]; [apply (G5 eq_refl Hd)|].
        destruct (G6 eq_refl Hd) as (K1 & K2 & K3). rewrite K1, K2.
        pose proof (I_fr _ _ _ I) as IR. rewrite Ef, G1 in IR. inversion IR; subst.
        destruct H2 as (Hfs & rx & Hrx & R). rewrite G2 in Hrx. injection Hrx as <-.
        destruct R as [(_ & _ & Hl)|(Hc & _)]; [|congruence].
        intros x Hx. injection Hx as <-. rewrite Hl. apply loc_after_pos.
        eapply fits_prefix. eapply (HF eq_refl). exact Hfs.
    - discriminate. }
  assert (Hopen : NoDup (map path_of ((f, [], content) :: frames st))).
  { cbn. constructor; auto. apply I. }
  destruct (mem f (seen st)) eqn:Em.
  - (* a file that was loaded before and is closed *)
    apply mem_In in Em. destruct (regs_find_in 1 _ _ Em) as [id Hid].
    rewrite <- (I_reg _ _ _ I) in Hid. rewrite Hid.
    destruct (id_range _ _ _ _ (f, [], content) I Hid) as [Hid1 Hid2].
    destruct (N.leb_spec (N.of_nat (List.length (s_recs s))) id); [lia|].
    assert (Hne : forall id' x, In x (frames st) -> find_idx (path_of x) (s_reg s) = Some id' -> id' <> id).
    { intros id' x Hx Hx' ->. apply Hno. rewrite (I_reg _ _ _ I) in *.
      assert (path_of x = f) by (eapply regs_inj; eauto). subst f. apply in_map. auto. }
    eexists. split; [reflexivity|]. split; [|split; [cbn; lia|]].
    + constructor; cbn.
      * apply I.
      * apply I.
      * rewrite set_nth_length. apply I.
      * constructor; auto. apply I.
      * constructor.
        -- split; [exact Efs|]. eexists. rewrite nth_set_same by auto. split; [reflexivity|]. left. auto.
        -- eapply frames_set; [apply I|apply I|exact Hne].
      * exact Hopen.
      * discriminate.
      * intros g id' Hg Hni. rewrite nth_set_other.
        -- eapply I_closed; [exact I|exact Hg|]. intros Hin. apply Hni. right. exact Hin.
        -- intros E. assert (id' = id) by lia. subst id'. apply Hni. left.
           rewrite (I_reg _ _ _ I) in *. eapply regs_inj; eauto.
    + intros Hs. eapply HX; cbn [s_stack s_lastLoc s_recs]; [reflexivity|reflexivity| | |exact Hs].
      * apply nth_set_same; auto.
      * intros id' Hin. apply nth_set_other. intros E. assert (id' = id) by lia. subst id'.
        pose proof (I_ids _ _ _ I) as IF. clear - IF Hin Hne.
        revert Hne. induction IF; intros Hne; [destruct Hin|].
        destruct Hin as [->|Hin]; [eapply Hne; [left; reflexivity|exact H|reflexivity]|].
        apply IHIF; auto. intros. eapply Hne; eauto. right; auto.
  - (* a new file *)
    assert (Hni : ~ In f (seen st)) by (intros Hin; apply mem_In in Hin; congruence).
    rewrite (I_reg _ _ _ I), (regs_find_none 1 _ _ Hni), regs_length.
    assert (Hu : u16 (N.of_nat (List.length (seen st)) + 1) = 1 + N.of_nat (List.length (seen st))).
    { unfold u16. rewrite N.mod_small; lia. }
    rewrite Hu. remember (1 + N.of_nat (List.length (seen st))) as id eqn:Eid.
    assert (Hreg : regs 1 (seen st ++ [f]) = regs 1 (seen st) ++ [(f, id)]) by (rewrite regs_app, Eid; reflexivity).
    assert (Hnat : N.to_nat id = List.length (s_recs s)) by (rewrite (I_len _ _ _ I); lia).
    assert (Hold : forall id' r, nth_error (s_recs s) (N.to_nat id') = Some r ->
      nth_error (s_recs s ++ [rec_open f content]) (N.to_nat id') = Some r).
    { intros id' r Hr. rewrite nth_error_app1; auto. apply nth_error_Some. congruence. }
    eexists. split; [reflexivity|]. split; [|split; [cbn; rewrite app_length; cbn; lia|]].
    + constructor; cbn.
      * symmetry. exact Hreg.
      * clear - I Hni. pose proof (I_nd _ _ _ I) as ND.
        induction (seen st) as [|x l IH]; cbn; [constructor; auto|].
        inversion ND; subst. constructor.
        -- rewrite in_app_iff. cbn. intros [H|[H|[]]]; [auto|subst; apply Hni; left; auto].
        -- apply IH; auto. intros H. apply Hni. right; auto.
      * rewrite !app_length. cbn. rewrite (I_len _ _ _ I). lia.
      * constructor.
        -- cbn. rewrite <- Hreg. destruct (regs_find_in 1 (seen st ++ [f]) f) as [i Hi].
           { apply in_or_app. right. left. reflexivity. }
           rewrite Hi. apply regs_find in Hi as [Hi1 Hi2].
           f_equal. destruct (Nat.lt_trichotomy (N.to_nat (i - 1)) (List.length (seen st))) as [Hl|[Hl|Hl]].
           ++ exfalso. rewrite nth_error_app1 in Hi2 by auto. apply Hni. eapply nth_error_In; eauto.
           ++ lia.
           ++ exfalso. assert (nth_error (seen st ++ [f]) (N.to_nat (i - 1)) <> None) by congruence.
              apply nth_error_Some in H. rewrite app_length in H. cbn in H. lia.
        -- pose proof (I_ids _ _ _ I) as IF. rewrite (I_reg _ _ _ I) in IF.
           eapply Forall2_impl; [|exact IF]. intros a x Ha. rewrite <- Hreg. apply regs_find_app. exact Ha.
      * constructor.
        -- split; [exact Efs|]. eexists. rewrite Hnat, nth_error_app2, Nat.sub_diag by lia.
           split; [reflexivity|]. left. auto.
        -- eapply Forall2_impl; [|apply (I_fr _ _ _ I)]. intros a [[p d] q] (Ha & r & Hr & R).
           split; auto. exists r. split; auto.
      * exact Hopen.
      * discriminate.
      * intros g id' Hg Hgi. rewrite <- Hreg in Hg.
        destruct (N.eq_dec g f) as [->|Hgf]; [exfalso; apply Hgi; left; reflexivity|].
        assert (Hin : In g (seen st)).
        { apply regs_find in Hg as [_ Hg]. apply nth_error_In in Hg. apply in_app_or in Hg as [Hg|[Hg|[]]]; congruence. }
        destruct (regs_find_in 1 _ _ Hin) as [j Hj]. pose proof (regs_find_app _ _ _ f _ Hj) as Hj2.
        rewrite Hg in Hj2. injection Hj2 as ->.
        destruct (I_closed _ _ _ I g j) as (r & ct & Hr & Hc & Hl).
        { rewrite (I_reg _ _ _ I). exact Hj. }
        { intros Hx. apply Hgi. right. exact Hx. }
        exists r, ct. split; auto.
    + intros Hs. eapply HX; cbn [s_stack s_lastLoc s_recs]; [reflexivity|reflexivity| | |exact Hs].
      * rewrite Hnat, nth_error_app2, Nat.sub_diag by lia. reflexivity.
      * intros id' Hin. pose proof (I_fr _ _ _ I) as IR. clear - IR Hin Hold.
        induction IR; [destruct Hin|]. destruct Hin as [->|Hin]; auto.
        destruct y as [[p d] q]. destruct H as (_ & r & Hr & _). rewrite Hr. apply Hold. exact Hr.
Qed.

Lemma run_sim fs strict ops : (strict = true -> all_fit fs) ->
  forall s st pb st2 outs, Inv fs s st -> (strict = true -> Ext fs s st pb) ->
  N.of_nat (List.length (seen st)) + N.of_nat (List.length ops) < 65536 ->
  sp_run fs strict st pb ops = Some (st2, outs) ->
  exists s2 outs2, run fs s (map conv_op ops) = Some (s2, outs2) /\ Inv fs s2 st2 /\
    map fst outs2 = map (fun o => conv_res (fst o)) outs /\
    (strict = true -> Forall2 (fun o2 o => forall x, snd o = Some x ->
        exists l, snd o2 = Some l /\ pos_of l = x) outs2 outs).
Proof.
  intros HF. induction ops as [|o ops IH]; intros s st pb st2 outs I HE HB H.
  - cbn in H. injection H as <- <-. exists s, []. cbn. auto.
  - cbn [sp_run] in H. cbn [List.length] in HB.
    destruct (sp_step fs strict st pb o) as [[[st1 pb1] x]|] eqn:Eo; [|discriminate].
    destruct (sp_run fs strict st1 pb1 ops) as [[st3 xs]|] eqn:Er; [|discriminate].
    injection H as -> <-.
    assert (HS : exists s1, step fs s (conv_op o) = Some (s1, conv_res x) /\ Inv fs s1 st1 /\
       (List.length (seen st1) <= S (List.length (seen st)))%nat /\ (strict = true -> Ext fs s1 st1 pb1)).
    { destruct o as [| |f once].
      - destruct (read_step _ _ _ _ _ _ _ _ HF I HE Eo) as (s1 & A & B & C & D). exists s1. rewrite C. auto.
      - destruct (unread_step _ _ _ _ _ _ _ _ I HE Eo) as (s1 & A & B & C & D). exists s1. rewrite C. auto.
      - apply (push_step _ _ _ _ _ _ _ _ _ _ HF) with (2 := I) (3 := HE) (4 := Eo). lia. }
    destruct HS as (s1 & E1 & I1 & L1 & X1).
    destruct (IH s1 st1 pb1 st2 xs I1 X1 ltac:(lia) Er) as (s2 & outs2 & E2 & I2 & M2 & F2).
    exists s2, ((conv_res x, getLocator s1) :: outs2). cbn [map run]. rewrite E1, E2.
    split; [reflexivity|]. split; [exact I2|]. split; [cbn; rewrite M2; reflexivity|].
    intros Hs. constructor; auto. cbn [snd]. eapply ext_locator; eauto.
Qed.

Lemma inv_init fs : Inv fs stream_init sst_init.
Proof.
  constructor; cbn; auto; try constructor; try discriminate.
Qed.

Lemma ext_init fs : Ext fs stream_init sst_init false.
Proof.
  constructor; cbn; try constructor; try discriminate; auto.
Qed.

(* ---- C50: lines of text ---- *)
Lemma split_lines_snoc s c : forall acc, split_lines acc (s ++ [c]) =
  let '(a, b) := split_lines acc s in if c =? 10 then (a ++ [b ++ [10]], []) else (a, b ++ [c]).
Proof.
  induction s as [|x s IH]; intros acc; cbn [split_lines app].
  - destruct (c =? 10); reflexivity.
  - destruct (x =? 10).
    + rewrite IH. destruct (split_lines [] s) as [a b]. destruct (c =? 10); reflexivity.
    + rewrite IH. reflexivity.
Qed.

Lemma split_lines_count s : N.of_nat (List.length (full_lines s)) = newlines s.
Proof.
  unfold full_lines. induction s as [|c s IH] using rev_ind; [reflexivity|].
  rewrite split_lines_snoc, newlines_snoc. destruct (split_lines [] s) as [a b]. cbn [fst] in IH.
  destruct (c =? 10); cbn [fst].
  - rewrite app_length. cbn. lia.
  - lia.
Qed.

Lemma split_lines_rest s : snd (split_lines [] s) = [] -> full_lines s = [] -> s = [].
Proof.
  unfold full_lines. destruct s as [|c s] using rev_ind; auto. intros H1 H2. exfalso. clear IHs.
  rewrite split_lines_snoc in *. destruct (split_lines [] s) as [a b]. destruct (c =? 10); cbn in *.
  - destruct a; discriminate.
  - destruct b; discriminate.
Qed.

(* the vector of lines the compiler keeps for a file *)
Definition vec (ls : list text) : list text := if list_eq_dec (list_eq_dec N.eq_dec) ls [[10]] then [[10]] else [10] :: ls.

Definition lines_inv (p : N) (d : text) (m : list (N * list text)) : Prop :=
  find_idx p m = match full_lines d with [] => None | ls => Some (vec ls) end.

Lemma find_set_lines p v m : find_idx p (set_lines p v m) = Some v.
Proof.
  induction m as [|[q w] m IH]; cbn; [rewrite N.eqb_refl; reflexivity|].
  destruct (N.eqb_spec p q); cbn.
  - subst. rewrite N.eqb_refl. reflexivity.
  - destruct (N.eqb_spec p q); [congruence|]. exact IH.
Qed.

Lemma append_line_vec d b : fits (d ++ [10]) -> snd (split_lines [] d) = b ->
  append_line (l_line (loc_after 0 d)) (b ++ [10]) (match full_lines d with [] => [] | ls => vec ls end)
  = vec (full_lines d ++ [b ++ [10]]).
Proof.
  intros F Eb. assert (F1 : fits d) by (eapply fits_prefix; eauto).
  pose proof (loc_after_pos 0 d F1) as LP. apply (f_equal (fun x => snd (fst x))) in LP.
  unfold pos_of, position_at in LP. cbn [fst snd] in LP. rewrite LP. clear LP.
  pose proof (split_lines_count d) as LC.
  destruct (full_lines d) as [|l ls] eqn:El.
  - cbn [List.length] in LC. cbn [app]. destruct d as [|c d].
    + cbn in Eb. subst b. reflexivity.
    + assert (Hb : b <> []).
      { intros ->. assert (c :: d = []) by (apply split_lines_rest; auto). discriminate. }
      rewrite <- LC. cbn. unfold vec. destruct (list_eq_dec _ _ _) as [E|E]; [|reflexivity].
      destruct b as [|x b]; [congruence|]. destruct b; discriminate.
  - destruct d as [|c d]; [discriminate|]. rewrite <- LC. unfold vec.
    destruct (list_eq_dec (list_eq_dec N.eq_dec) ((l :: ls) ++ [b ++ [10]]) [[10]]) as [E|_].
    { injection E as _ E. destruct ls; discriminate. }
    destruct (list_eq_dec (list_eq_dec N.eq_dec) (l :: ls) [[10]]) as [E|_].
    + injection E as -> ->. reflexivity.
    + unfold append_line. cbn [List.length].
      destruct (N.ltb_spec (N.of_nat (S (S (List.length ls)))) (1 + N.of_nat (S (List.length ls)))); [lia|].
      reflexivity.
Qed.

Lemma loc_line_path p d : l_line (loc_after p d) = l_line (loc_after 0 d) /\ l_byte (loc_after p d) = l_byte (loc_after 0 d).
Proof.
  induction d as [|c d IH] using rev_ind; [auto|]. rewrite !loc_after_snoc.
  unfold updateLineByteNo. destruct IH as [E1 E2]. rewrite ?E1, ?E2.
  repeat match goal with |- context [if ?b then _ else _] => destruct b end; auto.
Qed.

Lemma char_of_N c : is_byte c = true -> char_of (Z.of_N c) = c.
Proof. unfold is_byte, char_of. lia. Qed.

Lemma update_line_inv p d c r m : is_byte c = true -> fits (d ++ [c]) -> lines_inv p d m ->
  fr_loc r = loc_after p d -> fr_line r = snd (split_lines [] d) ->
  fst (updateLineOfText r (Z.of_N c) m) = snd (split_lines [] (d ++ [c])) /\
  lines_inv p (d ++ [c]) (snd (updateLineOfText r (Z.of_N c) m)).
Proof.
  intros Hb F LI Hl Ht. unfold updateLineOfText. rewrite char_of_N by auto. unfold lines_inv in *.
  unfold full_lines in *. rewrite split_lines_snoc. rewrite Ht.
  pose proof (append_line_vec d) as AV. unfold full_lines in AV.
  destruct (split_lines [] d) as [a b] eqn:Es. cbn [fst snd] in *.
  destruct (N.eqb_spec c 10) as [->|Hc]; cbn [fst snd]; [|auto].
  split; auto. unfold appendNextLineOfText. rewrite Hl, loc_after_path, find_set_lines.
  rewrite (proj1 (loc_line_path p d)). rewrite LI.
  specialize (AV b F eq_refl).
  transitivity (Some (vec (a ++ [b ++ [10]]))); [|destruct a; reflexivity].
  f_equal. rewrite <- AV. destruct a; reflexivity.
Qed.

Lemma reads_lines fs p t k : is_text t = true -> fits t -> forall s d r,
  s_stack s = [1] -> List.length (s_recs s) = 2%nat -> nth_error (s_recs s) 1 = Some r ->
  fr_have r = false -> fr_fp r = Some (skipn (List.length d) t) -> d = firstn (List.length d) t ->
  fr_loc r = loc_after p d -> fr_line r = snd (split_lines [] d) -> lines_inv p d (s_lines s) ->
  exists s2 o, run fs s (repeat ORead k) = Some (s2, o) /\
    lines_inv p (firstn (List.length d + k) t) (s_lines s2).
Proof.
  intros Ht F. induction k as [|k IH]; intros s d r H1 H2 H3 H4 H5 H6 H7 H8 H9.
  - exists s, []. split; [reflexivity|]. rewrite Nat.add_0_r, <- H6. exact H9.
  - cbn [repeat run step]. unfold read. rewrite H1. cbn [List.length read_fuel]. rewrite H1.
    unfold getrec. change (N.to_nat 1) with 1%nat. rewrite H3, H4, H5.
    destruct (skipn (List.length d) t) as [|c q] eqn:Eq.
    + (* end of file: nothing more is read *)
      destruct (updateLineOfText r (-1) (s_lines s)) as [lt lines] eqn:Eu.
      cbn [N.eqb Z.eqb Pos.eqb].
      assert (lines = s_lines s).
      { unfold updateLineOfText in Eu. change (char_of (-1)) with 255 in Eu. cbn in Eu. injection Eu as _ <-. reflexivity. }
      subst lines. unfold discardTop. cbn [s_stack]. unfold getrec. cbn [s_recs]. change (N.to_nat 1) with 1%nat.
      rewrite nth_set_same by lia. cbn [s_stack].
      assert (Hall : forall j s0, s_stack s0 = [] -> exists s2 o, run fs s0 (repeat ORead j) = Some (s2, o) /\ s_lines s2 = s_lines s0).
      { induction j as [|j IHj]; intros s0 E0; [eexists _, _; split; [reflexivity|reflexivity]|].
        cbn [repeat run step]. unfold read. rewrite E0. cbn [List.length read_fuel]. rewrite E0.
        destruct (IHj s0 E0) as (s2 & o & E & EL). rewrite E. eexists _, _. split; [reflexivity|]. exact EL. }
      match goal with |- context [run fs ?S (repeat ORead k)] => destruct (Hall k S eq_refl) as (s2 & o & E & EL) end.
      rewrite E. eexists _, _. split; [reflexivity|]. rewrite EL. cbn [s_lines].
      assert (List.length t <= List.length d)%nat.
      { assert (List.length (skipn (List.length d) t) = 0%nat) by (rewrite Eq; reflexivity).
        rewrite skipn_length in H. unfold text in *. lia. }
      rewrite firstn_all2 by (unfold text in *; lia). rewrite firstn_all2 in H6 by auto. rewrite <- H6. exact H9.
    + destruct (updateLineOfText r (Z.of_N c) (s_lines s)) as [lt lines] eqn:Eu.
      cbn [N.eqb]. rewrite Z_of_N_neg1.
      assert (Hsplit : t = d ++ c :: q) by (rewrite <- Eq, H6 at 1; symmetry; apply firstn_skipn).
      assert (Hbc : is_byte c = true).
      { unfold is_text in Ht. rewrite Hsplit, forallb_app in Ht. cbn in Ht.
        apply andb_true_iff in Ht as [_ Ht]. apply andb_true_iff in Ht as [Ht _]. exact Ht. }
      assert (Fc : fits (d ++ [c])).
      { eapply fits_prefix. rewrite <- app_assoc. cbn. rewrite <- Hsplit. exact F. }
      destruct (update_line_inv p d c r (s_lines s) Hbc Fc H9 H7 H8) as [U1 U2]. rewrite Eu in U1, U2. cbn [fst snd] in U1, U2.
      assert (Hlen : List.length (d ++ [c]) = S (List.length d)) by (rewrite app_length; cbn; lia).
      set (r' := mkRec _ _ _ _ _ _ _). set (s' := mkS _ _ _ _ _ _).
      destruct (IH s' (d ++ [c]) r') as (s2 & o & E & EL).
      * reflexivity.
      * cbn [s' s_recs]. rewrite set_nth_length. exact H2.
      * cbn [s' s_recs]. apply nth_set_same. lia.
      * reflexivity.
      * cbn [r' fr_fp]. f_equal. rewrite Hlen, Hsplit.
        replace (S (List.length d)) with (List.length (d ++ [c])).
        rewrite <- (app_assoc d [c] q) at 1 || idtac.
        change (d ++ c :: q) with (d ++ [c] ++ q). rewrite app_assoc, skipn_app, skipn_all, Nat.sub_diag. reflexivity.
      * rewrite Hsplit. change (d ++ c :: q) with (d ++ [c] ++ q).
        rewrite app_assoc, firstn_app, Nat.sub_diag, firstn_all. cbn. rewrite app_nil_r. reflexivity.
      * cbn [r' fr_loc]. rewrite H7. symmetry. apply loc_after_snoc.
      * exact U1.
      * exact U2.
      * rewrite E. eexists _, _. split; [reflexivity|]. rewrite Hlen in EL.
        replace (List.length d + S k)%nat with (S (List.length d) + k)%nat by lia. exact EL.
Qed.
