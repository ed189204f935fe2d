(* SourceStreamTheorems.v: properties C10, C11, C50. *)
From Coq Require Import String List NArith ZArith Lia Bool.
From Coq Require Import ZifyBool ZifyNat ZifyN.
From Verif Require Import Base StringPoolModel StringPoolProofs SourceStreamModel SourceStreamSpec SourceStreamProofs.
Import ListNotations.
Open Scope N_scope.

(* C10: the position after reading any text, as long as it fits the 16-bit fields *)
Theorem C10_line_and_byte : forall p s, s <> [] -> newlines s < 65535 -> (forall k, column (firstn k s) < 65536) ->
  loc_after p s = mkLoc p (1 + newlines s) (column s).
Proof.
  intros p s Hs Hn Hc. pose proof (loc_after_pos p s (conj Hn Hc)) as H. unfold pos_of, position_at in H.
  destruct (loc_after p s) as [a b c]. cbn [l_path l_line l_byte] in H. destruct s as [|x s]; [congruence|].
  remember (1 + newlines (x :: s)) as m. injection H as -> -> ->. reflexivity.
Qed.
Print Assumptions C10_line_and_byte.

(* reading on makes the position larger in the order of Locator::operator<, so different places of a file have
   different positions *)
Lemma loc_lt_trans_pos p a b c d : loc_lt (mkLoc p a b) (mkLoc p c d) = true <-> a < c \/ (a = c /\ b < d).
Proof.
  unfold loc_lt. cbn. rewrite N.ltb_irrefl.
  destruct (N.ltb_spec a c), (N.ltb_spec c a), (N.ltb_spec b d), (N.ltb_spec d b); split; intros; try lia; auto;
    try (right; lia); try discriminate.
Qed.

Lemma column_le_newlines a b : newlines (a ++ b) = newlines a -> column (a ++ b) = column a + N.of_nat (List.length b).
Proof.
  induction b as [|c b IH] using rev_ind; intros H.
  - rewrite app_nil_r. cbn. lia.
  - rewrite app_assoc in *. rewrite column_snoc. rewrite newlines_snoc in H.
    rewrite newlines_app in H. revert H. destruct (N.eqb_spec c 10); intros H; [lia|].
    rewrite IH by (rewrite newlines_app; lia). rewrite app_length. cbn [List.length]. unfold text in *. lia.
Qed.

Theorem C10_positions_increase : forall p a b, b <> [] -> newlines (a ++ b) < 65535 ->
  (forall k, column (firstn k (a ++ b)) < 65536) ->
  loc_lt (loc_after p a) (loc_after p (a ++ b)) = true /\ loc_eqb (loc_after p a) (loc_after p (a ++ b)) = false.
Proof.
  intros p a b Hb Hn Hc.
  assert (F : fits (a ++ b)) by (split; auto).
  pose proof (loc_after_pos p _ F) as P1. pose proof (loc_after_pos p a (fits_prefix _ _ F)) as P2.
  assert (L : loc_lt (loc_after p a) (loc_after p (a ++ b)) = true).
  { destruct (loc_after p (a ++ b)) as [x1 x2 x3], (loc_after p a) as [y1 y2 y3].
    unfold pos_of, position_at in *. cbn [l_path l_line l_byte] in *.
    replace (match a ++ b with [] => 0 | _ :: _ => 1 + newlines (a ++ b) end) with (1 + newlines (a ++ b)) in P1
      by (destruct a; [destruct b; [congruence|reflexivity]|reflexivity]).
    remember (1 + newlines (a ++ b)) as m. remember (match a with [] => 0 | _ => 1 + newlines a end) as k.
    injection P1 as -> -> ->. injection P2 as -> -> ->. apply loc_lt_trans_pos.
    rewrite newlines_app in *. destruct a as [|c a]; [left; lia|].
    destruct (N.eq_dec (newlines b) 0) as [E|E]; [|left; lia].
    right. split; [lia|]. rewrite column_le_newlines by (rewrite newlines_app; lia).
    destruct b; [congruence|]. cbn [List.length]. lia. }
  split; auto.
  unfold loc_eqb. unfold loc_lt in L.
  destruct (N.eqb_spec (l_path (loc_after p a)) (l_path (loc_after p (a ++ b)))); [|reflexivity].
  destruct (N.eqb_spec (l_line (loc_after p a)) (l_line (loc_after p (a ++ b)))); [|reflexivity].
  destruct (N.eqb_spec (l_byte (loc_after p a)) (l_byte (loc_after p (a ++ b)))); [|reflexivity].
  rewrite e, e0, e1, !N.ltb_irrefl in L. discriminate.
Qed.
Print Assumptions C10_positions_increase.

Example C10_ex : loc_after 7 (txt "ab" ++ [10; 10] ++ txt "xyz") = mkLoc 7 3 3
  /\ newlines (txt "ab" ++ [10; 10] ++ txt "xyz") = 2 /\ column (txt "ab" ++ [10; 10] ++ txt "xyz") = 3.
Proof. vm_compute. auto. Qed.

(* C10 without the bounds is false: the fields are 16 bits wide. A line of 65536 bytes reports byte 0; and after
   65535 newlines the line number is 0, taken for "uninitialised" and reset to 1 by the next byte. *)
Theorem C10_long_line_refuted : exists s, newlines s = 0 /\ column s = 65536 /\ l_byte (loc_after 1 s) = 0.
Proof. exists (repeat 97 (N.to_nat 65536)). vm_compute. auto. Qed.
Print Assumptions C10_long_line_refuted.

Theorem C10_many_lines_refuted : exists s, 1 + newlines s = 65536 /\ l_line (loc_after 1 s) = 1.
Proof. exists (repeat 10 (N.to_nat 65535) ++ [97]). vm_compute. auto. Qed.
Print Assumptions C10_many_lines_refuted.

(* C11: bytes. For every history of reads, one-byte pushbacks (each directly after a read) and loads of files
   that are not open at the time, the stream delivers what the nested files say. *)
Theorem C11_bytes_delivered : forall fs ops st outs, N.of_nat (List.length ops) < 65536 ->
  sp_run fs false sst_init false ops = Some (st, outs) ->
  exists s outs', run fs stream_init (map conv_op ops) = Some (s, outs') /\
    map fst outs' = map (fun o => conv_res (fst o)) outs.
Proof.
  intros fs ops st outs HB H.
  destruct (run_sim fs false ops ltac:(discriminate) stream_init sst_init false st outs (inv_init fs)
     ltac:(discriminate) ltac:(cbn; lia) H) as (s & o & A & _ & B & _).
  exists s, o. auto.
Qed.
Print Assumptions C11_bytes_delivered.

(* C11: positions. If moreover no file is loaded while a byte is pushed back and there is one outermost file,
   the reported position is the specified one after every operation. *)
Theorem C11_positions : forall fs ops st outs, N.of_nat (List.length ops) < 65536 ->
  (forall f t, fs f = Some t -> fits t) ->
  sp_run fs true sst_init false ops = Some (st, outs) ->
  exists s outs', run fs stream_init (map conv_op ops) = Some (s, outs') /\
    map fst outs' = map (fun o => conv_res (fst o)) outs /\
    Forall2 (fun o' o => forall x, snd o = Some x ->
      exists l, snd o' = Some l /\ (l_path l, l_line l, l_byte l) = x) outs' outs.
Proof.
  intros fs ops st outs HB HF H.
  destruct (run_sim fs true ops (fun _ => HF) stream_init sst_init false st outs (inv_init fs)
     (fun _ => ext_init fs) ltac:(cbn; lia) H) as (s & o & A & _ & B & C).
  exists s, o. split; [exact A|]. split; [exact B|]. apply C. reflexivity.
Qed.
Print Assumptions C11_positions.

(* the specification machine itself, in closed form: reading n bytes of a file, loading another and reading
   everything delivers the first n bytes, all of the loaded file and the rest *)
Lemma sp_run_app fs strict a : forall st pb b st1 o1, 
  sp_run fs strict st pb a = Some (st1, o1) -> (forall x, In x a -> x = SpRead) -> a <> [] ->
  sp_run fs strict st pb (a ++ b) =
    match sp_run fs strict st1 false b with Some (st2, o2) => Some (st2, o1 ++ o2) | None => None end.
Proof.
  induction a as [|x a IH]; intros st pb b st1 o1 H Hr Hne; [congruence|].
  cbn [sp_run app] in *. destruct (sp_step fs strict st pb x) as [[[st' pb'] r]|] eqn:E; [|discriminate].
  assert (pb' = false).
  { rewrite (Hr x (or_introl eq_refl)) in E. cbn in E. destruct (next (frames st)) as [[? ?] [?|]]; injection E as _ <- _; auto. }
  subst pb'. destruct a as [|y a].
  - cbn in H. injection H as <- <-. cbn. destruct (sp_run fs strict st' false b) as [[? ?]|]; reflexivity.
  - destruct (sp_run fs strict st' false (y :: a)) as [[st3 o3]|] eqn:E3; [|discriminate].
    injection H as <- <-. rewrite (IH st' false b st3 o3); auto; [|intros; apply Hr; right; auto|discriminate].
    destruct (sp_run fs strict st3 false b) as [[? ?]|]; reflexivity.
Qed.

Definition fr_rest (x : frame) : text := snd x.

Lemma sp_reads fs strict k : forall st pb, (k <= List.length (flat_map fr_rest (frames st)))%nat ->
  exists st1 o1, sp_run fs strict st pb (repeat SpRead k) = Some (st1, o1) /\
    map fst o1 = map (fun c => SpByte (Some c)) (firstn k (flat_map fr_rest (frames st))) /\
    flat_map fr_rest (frames st1) = skipn k (flat_map fr_rest (frames st)) /\ seen st1 = seen st /\
    incl (map path_of (frames st1)) (map path_of (frames st)).
Proof.
  induction k as [|k IH]; intros st pb Hk.
  - exists st, []. cbn. repeat split; auto. apply incl_refl.
  - cbn [repeat sp_run].
    assert (HS : exists st1 c pb1 r, flat_map fr_rest (frames st) = c :: r /\
       sp_step fs strict st pb SpRead = Some (st1, pb1, SpByte (Some c)) /\ flat_map fr_rest (frames st1) = r /\
       seen st1 = seen st /\ incl (map path_of (frames st1)) (map path_of (frames st))).
    { cbn [sp_step]. destruct (next (frames st)) as [[dr fr] c] eqn:En.
      destruct (next_shape _ _ _ _ En) as (fr0 & E & HF & Sh).
      assert (Hdr : flat_map fr_rest dr = []).
      { clear - HF. induction HF; cbn [flat_map]; auto. change (fr_rest x) with (snd x). rewrite H, IHHF. reflexivity. }
      destruct c as [c|].
      - destruct Sh as (p & d & q & r & -> & ->). rewrite E, flat_map_app, Hdr.
        eexists _, c, _, _. split; [reflexivity|]. split; [reflexivity|]. cbn. split; auto. split; auto.
        rewrite map_app. cbn. apply incl_appr. apply incl_refl.
      - destruct Sh as [-> ->]. rewrite E, app_nil_r, Hdr in Hk. cbn in Hk. lia. }
    destruct HS as (st1 & c & pb1 & r & E1 & E2 & E3 & E4 & E5). rewrite E2.
    destruct (IH st1 pb1) as (st2 & o2 & F1 & F2 & F3 & F4 & F5).
    { rewrite E3. rewrite E1 in Hk. cbn in Hk. lia. }
    rewrite F1. eexists _, _. split; [reflexivity|]. cbn [map]. rewrite F2, F3, E1, E3. cbn.
    split; [reflexivity|]. split; [reflexivity|]. split; [congruence|]. eapply incl_tran; eauto.
Qed.

Theorem C11_load_splices : forall fs f g a b c, f <> g -> fs f = Some (a ++ b) -> fs g = Some c ->
  N.of_nat (List.length a + List.length b + List.length c) < 65500 ->
  let ops := OPush f true :: repeat ORead (List.length a) ++ OPush g true
               :: repeat ORead (List.length c + List.length b) ++ [ORead] in
  exists s outs, run fs stream_init ops = Some (s, outs) /\
    map fst outs = RPush true :: map (fun x => RByte (Some (Z.of_N x))) a ++ RPush true
       :: map (fun x => RByte (Some (Z.of_N x))) (c ++ b) ++ [RByte (Some (-1)%Z)].
Proof.
  intros fs f g a b c Hfg Hf Hg HB ops.
  set (sops := SpPush f true :: repeat SpRead (List.length a) ++ SpPush g true
               :: repeat SpRead (List.length c + List.length b) ++ [SpRead]).
  assert (Hm : map conv_op sops = ops).
  { unfold sops, ops. cbn [map]. rewrite map_app. cbn [map]. rewrite map_app.
    assert (R : forall k, map conv_op (repeat SpRead k) = repeat ORead k) by (induction k; cbn; congruence).
    rewrite !R. reflexivity. }
  set (st0 := mkSst [(f, [], a ++ b)] [f] false (Some (0, 0, 0)) None).
  destruct (sp_reads fs false (List.length a) st0 false) as (st1 & o1 & A1 & A2 & A3 & A4 & A5).
  { cbn. rewrite app_nil_r, app_length. lia. }
  cbn [flat_map frames st0] in A2, A3. change (fr_rest (f, [], a ++ b)) with (a ++ b) in A2, A3.
  rewrite app_nil_r in A2, A3. rewrite firstn_app, Nat.sub_diag, firstn_all in A2. cbn [firstn] in A2. rewrite app_nil_r in A2.
  rewrite skipn_app, Nat.sub_diag, skipn_all in A3. cbn [skipn app] in A3.
  cbn in A4, A5.
  set (st1' := mkSst ((g, [], c) :: frames st1) (seen st1 ++ [g]) false (cur st1) None).
  destruct (sp_reads fs false (List.length c + List.length b) st1' false) as (st2 & o2 & B1 & B2 & B3 & B4 & B5).
  { cbn [st1' frames flat_map]. change (fr_rest (g, [], c)) with c. rewrite app_length, A3. lia. }
  cbn [st1' frames flat_map] in B2, B3. change (fr_rest (g, [], c)) with c in B2, B3. rewrite A3 in B2, B3.
  rewrite firstn_all2 in B2 by (rewrite app_length; lia).
  rewrite skipn_all2 in B3 by (rewrite app_length; lia).
  assert (Hpush : forall pb, sp_step fs false st1 pb (SpPush g true) = Some (st1', false, SpPushed true)).
  { intros pb. cbn [sp_step]. rewrite A4. cbn [mem existsb andb]. 
    destruct (N.eqb_spec g f); [congruence|]. cbn [orb]. rewrite Hg.
    unfold is_open. destruct (mem g (map (fun x => fst (fst x)) (frames st1))) eqn:Em.
    - apply mem_In in Em. apply A5 in Em. destruct Em as [Em|[]]. cbn in Em. congruence.
    - cbn [mem existsb]. unfold st1'. rewrite A4. cbn [app]. reflexivity. }
  assert (Hend : forall pb, exists st3, sp_step fs false st2 pb SpRead = Some (st3, false, SpByte None)).
  { intros pb. cbn [sp_step]. destruct (next (frames st2)) as [[dr fr] x] eqn:En.
    destruct (next_shape _ _ _ _ En) as (fr0 & E & _ & Sh). destruct x as [x|]; [|eauto].
    destruct Sh as (p & d & q & r & -> & ->). rewrite E, flat_map_app in B3. cbn in B3.
    apply app_eq_nil in B3 as [_ B3]. discriminate. }
  assert (Hrun : exists st outs, sp_run fs false sst_init false sops = Some (st, outs) /\
     map fst outs = SpPushed true :: map (fun c => SpByte (Some c)) a ++ SpPushed true ::
       map (fun c => SpByte (Some c)) (c ++ b) ++ [SpByte None]).
  { assert (H0 : sp_step fs false sst_init false (SpPush f true) = Some (st0, false, SpPushed true))
      by (cbn; rewrite Hf; reflexivity).
    unfold sops. cbn [sp_run]. rewrite H0. clear H0.
    assert (Hlast : forall st pb, frames st = frames st2 -> exists st3, sp_run fs false st pb [SpRead] = Some (st3, [(SpByte None, cur st3)])).
    { intros st pb E. cbn [sp_run sp_step]. destruct (Hend false) as (st3 & H3). cbn [sp_step] in H3.
      rewrite E. destruct (next (frames st2)) as [[dr fr] [x|]]; [discriminate|]. eexists; reflexivity. }
    assert (Htail : exists st outs, sp_run fs false st1' false (repeat SpRead (List.length c + List.length b) ++ [SpRead])
        = Some (st, outs) /\ map fst outs = map (fun c => SpByte (Some c)) (c ++ b) ++ [SpByte None]).
    { destruct (Nat.eq_dec (List.length c + List.length b) 0) as [E0|E0].
      - rewrite E0 in *. cbn in B1. injection B1 as <- <-. cbn [repeat app].
        destruct (Hlast st1' false eq_refl) as (st3 & ->). eexists _, _. split; [reflexivity|].
        cbn in B2. cbn [map fst]. rewrite <- B2. reflexivity.
      - rewrite (sp_run_app _ _ _ _ _ _ _ _ B1).
        + destruct (Hlast st2 false eq_refl) as (st3 & ->). eexists _, _. split; [reflexivity|].
          rewrite map_app, B2. reflexivity.
        + intros x Hx. apply repeat_spec in Hx. auto.
        + destruct (List.length c + List.length b)%nat; [congruence|discriminate]. }
    destruct Htail as (st & outs & T1 & T2).
    destruct a as [|x a].
    - cbn in A1. injection A1 as <- <-.
      match goal with |- context [sp_run _ _ st0 false (?p ++ ?r)] => change (p ++ r) with r end.
      cbn [sp_run]. rewrite Hpush, T1. eexists _, _. split; [reflexivity|]. cbn. rewrite T2. reflexivity.
    - rewrite (sp_run_app _ _ _ _ _ _ _ _ A1).
      + cbn [sp_run]. rewrite Hpush, T1. eexists _, _. split; [reflexivity|].
        cbn [map fst]. rewrite map_app, A2. cbn [map fst]. rewrite T2. reflexivity.
      + intros y Hy. apply repeat_spec in Hy. auto.
      + discriminate. }
  destruct Hrun as (st & outs & R1 & R2).
  destruct (C11_bytes_delivered fs sops st outs) as (s & outs' & S1 & S2); auto.
  { unfold sops. cbn [List.length]. rewrite app_length. cbn [List.length]. rewrite app_length, !repeat_length. cbn [List.length]. lia. }
  rewrite Hm in S1. exists s, outs'. split; auto. rewrite S2, <- (map_map fst conv_res), R2.
  cbn [map]. rewrite map_app. cbn [map]. rewrite map_app. rewrite !map_map. reflexivity.
Qed.
Print Assumptions C11_load_splices.

Definition ex_fs (f : N) : option text :=
  if f =? 1 then Some (txt "ab" ++ [10] ++ txt "cd")
  else if f =? 2 then Some (txt "xy") else if f =? 3 then Some [] else None.

Example C11_ex :
  let ops := [SpPush 1 true; SpRead; SpRead; SpUnread; SpRead; SpPush 2 false; SpRead; SpRead; SpRead; SpUnread;
              SpRead; SpPush 2 true; SpPush 9 true; SpRead; SpRead; SpRead; SpRead] in
  exists st outs, sp_run ex_fs true sst_init false ops = Some (st, outs) /\
    map fst outs = [SpPushed true; SpByte (Some 97); SpByte (Some 98); SpUnit; SpByte (Some 98); SpPushed true;
      SpByte (Some 120); SpByte (Some 121); SpByte (Some 10); SpUnit; SpByte (Some 10); SpPushed true; SpPushed false;
      SpByte (Some 99); SpByte (Some 100); SpByte None; SpByte None] /\
    map snd outs = [Some (0,0,0); Some (1,1,1); Some (1,1,2); Some (1,1,1); Some (1,1,2); Some (1,1,2);
      Some (2,1,1); Some (2,1,2); Some (1,2,0); Some (2,1,2); Some (1,2,0); Some (1,2,0); Some (1,2,0);
      Some (1,2,1); Some (1,2,2); Some (1,2,2); Some (1,2,2)].
Proof. vm_compute. eexists _, _. split; [reflexivity|]. auto. Qed.

(* C11 is false for a file that is loaded while it is open: the record of the outer reading is overwritten, and the
   rest of the outer reading is lost (here the second "b"). *)
Theorem C11_reload_of_open_file_refuted :
  exists fs s outs, fs 1 = Some (txt "ab") /\
    run fs stream_init [OPush 1 true; ORead; OPush 1 false; ORead; ORead; ORead; ORead] = Some (s, outs) /\
    map fst outs = [RPush true; RByte (Some 97%Z); RPush true; RByte (Some 97%Z); RByte (Some 98%Z);
                    RByte (Some (-1)%Z); RByte (Some (-1)%Z)] /\
    s_stack s = [1].
Proof. exists (fun f => if f =? 1 then Some (txt "ab") else None). vm_compute. eexists _, _. auto. Qed.
Print Assumptions C11_reload_of_open_file_refuted.

(* C11: the position before a read is not restored by pushing the byte back if an empty file ended in between: the
   stream then reports line 0 of the empty file (3) instead of line 1, byte 1 of file 1. *)
Theorem C11_position_after_empty_file_refuted :
  exists s outs, run ex_fs stream_init [OPush 1 true; ORead; OPush 3 true; ORead; OUnread] = Some (s, outs) /\
    map snd outs = [Some (mkLoc 0 0 0); Some (mkLoc 1 1 1); Some (mkLoc 1 1 1); Some (mkLoc 1 1 2); Some (mkLoc 3 0 0)].
Proof. vm_compute. eexists _, _. auto. Qed.
Print Assumptions C11_position_after_empty_file_refuted.

(* C50: the text shown for a line that was read completely is that line. (A first line that is empty and the only
   complete line so far is shown as missing.) *)
Theorem C50_source_lines_partial : forall fs f t k, fs f = Some t -> is_text t = true -> fits t ->
  full_lines (firstn k t) <> [[10]] ->
  exists s outs, run fs stream_init (OPush f true :: repeat ORead k) = Some (s, outs) /\
    forall n l b, nth_error (full_lines (firstn k t)) n = Some l ->
      getLineOfText (s_lines s) (mkLoc f (N.of_nat n + 1) b) = LineText l.
Proof.
  intros fs f t k Hf Ht F Hne. cbn [run step]. unfold push.
  replace (true && isPushed stream_init f) with false by reflexivity. rewrite Hf. cbn [stream_init s_reg find_idx].
  change (u16 (N.of_nat (List.length []) + 1)) with 1. cbn [s_stack s_recs app s_lastB s_lastLoc s_lines].
  set (s0 := mkS _ _ _ _ _ _).
  destruct (reads_lines fs f t k Ht F s0 [] (rec_open f t)) as (s & o & E & L); try reflexivity.
  rewrite E. eexists s, _. split; [reflexivity|].
  intros n l b Hn. unfold getLineOfText. cbn [l_path l_line]. unfold lines_inv in L. cbn [List.length Nat.add] in L.
  rewrite L. destruct (full_lines (firstn k t)) as [|x ls] eqn:El; [destruct n; discriminate|].
  unfold vec. destruct (list_eq_dec _ _ _) as [Ex|_]; [congruence|].
  assert (Hl : (n < List.length (x :: ls))%nat) by (apply nth_error_Some; congruence).
  match goal with |- context [?a <=? ?b] => replace (a <=? b) with false end.
  2: { symmetry. apply N.leb_gt. unfold text in *. cbn [List.length] in *. lia. }
  replace (N.to_nat (N.of_nat n + 1)) with (S n) by lia.
  change (nth_error ([10] :: x :: ls) (S n)) with (nth_error (x :: ls) n). rewrite Hn. reflexivity.
Qed.
Print Assumptions C50_source_lines_partial.

Example C50_ex : full_lines (firstn 20 ([10] ++ txt "ab" ++ [10] ++ txt "c")) = [[10]; txt "ab" ++ [10]]
  /\ is_text ([10] ++ txt "ab" ++ [10] ++ txt "c") = true.
Proof. vm_compute. auto. Qed.

(* C50 is false for a last line without a newline: it is reported as empty, and for a file without any newline the
   file itself is unknown (which the compiler reports as an error). *)
Theorem C50_unterminated_line_refuted :
  exists fs s outs, fs 1 = Some (txt "a" ++ [10] ++ txt "b") /\ fs 2 = Some (txt "element E {}") /\
    run fs stream_init (OPush 1 true :: OPush 2 true :: repeat ORead 30) = Some (s, outs) /\
    getLineOfText (s_lines s) (mkLoc 1 2 1) = EmptyLine 2 /\
    getLineOfText (s_lines s) (mkLoc 2 1 3) = EmptyPath.
Proof.
  exists (fun f => if f =? 1 then Some (txt "a" ++ [10] ++ txt "b") else if f =? 2 then Some (txt "element E {}") else None).
  vm_compute. eexists _, _. auto.
Qed.
Print Assumptions C50_unterminated_line_refuted.

(* C50 is false for a file loaded twice whose last line has no newline: that line shows the text of line 1 *)
Theorem C50_loaded_twice_refuted :
  exists fs s outs, fs 1 = Some (txt "a" ++ [10] ++ txt "b") /\
    run fs stream_init (OPush 1 false :: repeat ORead 4 ++ OPush 1 false :: repeat ORead 4) = Some (s, outs) /\
    getLineOfText (s_lines s) (mkLoc 1 2 1) = LineText (txt "a" ++ [10]).
Proof.
  exists (fun f => if f =? 1 then Some (txt "a" ++ [10] ++ txt "b") else None).
  vm_compute. eexists _, _. auto.
Qed.
Print Assumptions C50_loaded_twice_refuted.
