(* Proofs for C81. *)
From Verif Require Import Base Lib Types Keys MacroExec Kbd Str MacroParse Config Match Outside SpecWf ParseWf SpecMods SpecLookup SpecDefer SpecHist SpecText SpecBind ParseFrame TextProofs BindProofs Steps Hist Device Daemon SpecDaemon DaemonProofs EntryProofs ListenProofs TimelyProofs BoundProofs PropDaemon
  SpecRef RefProofs RefSteps RefRun SpecWait WaitProofs SpecFull FullProofs SpecSystem SystemProofs SpecEntire EntireProofs PropClass SpecLive LiveProofs SpecLiving.
From Coq Require Import String.
Local Open Scope list_scope.
Local Open Scope nat_scope.
Local Notation length := List.length.

(* ---- typing ---------------------------------------------------------------------------------- *)
Definition adds (f : dstate -> dstate) : Prop := exists xs, forall d, f d = set_d_out (xs ++ d_out d) d.
Lemma adds_emit v : adds (vemit v).
Proof. exists [v]. intros d. reflexivity. Qed.
Lemma adds_comp f g : adds f -> adds g -> adds (fun d => g (f d)).
Proof. intros [x Hx] [y Hy]. exists (y ++ x). intros d. rewrite Hy, Hx. cbn [d_out set_d_out]. now rewrite <- app_assoc. Qed.
Lemma adds_id : adds (fun d => d).
Proof. exists []. intros []. reflexivity. Qed.
Lemma adds_tap c : adds (tap c).
Proof. exact (adds_comp _ _ (adds_emit _) (adds_emit _)). Qed.
Lemma adds_taps l : adds (fun d => fold_left (fun d c => tap c d) l d).
Proof. induction l as [|c l IH]; [exact adds_id|]. cbn [fold_left]. exact (adds_comp _ _ (adds_tap c) IH). Qed.
Lemma char_adds csz cp : exists f b, adds f /\ forall d, input_char csz cp d = (f d, b).
Proof.
  unfold input_char.
  assert (U : exists f b, adds f /\ forall d, match unicode_lookup_index cp with None => (d, false) | Some i => (fold_left (fun d c => tap c d) (unicode_get_sequence i) d, true) end = (f d, b)).
  { destruct (unicode_lookup_index cp) as [i|]; [exists (fun d => fold_left (fun d c => tap c d) (unicode_get_sequence i) d), true|exists (fun d => d), false]; split; auto using adds_taps, adds_id. }
  destruct (Nat.eqb csz 1); [|exact U]. destruct (parse_key_sequence _) as [[code mods]|].
  - destruct (negb _); [|exists (tap code), true; split; [apply adds_tap|reflexivity]].
    exists (fun d => vemit (VKey K_LEFTSHIFT false) (tap code (vemit (VKey K_LEFTSHIFT true) d))), true. split; [|reflexivity].
    exact (adds_comp _ _ (adds_comp _ _ (adds_emit _) (adds_tap code)) (adds_emit _)).
  - destruct (cp =? 32)%N; [exists (tap K_SPACE), true; split; [apply adds_tap|reflexivity]|].
    destruct (cp =? 10)%N; [exists (tap K_ENTER), true; split; [apply adds_tap|reflexivity]|].
    destruct (cp =? 9)%N; [exists (tap K_TAB), true; split; [apply adds_tap|reflexivity]|]. exact U.
Qed.
Lemma input_adds t : forall n buf d d' b, input n buf t d = Ok (d', b) -> exists f, adds f /\ d' = f d /\ forall e, input n buf t e = Ok (f e, b).
Proof.
  induction n as [|n IH]; intros buf d d' b H; [discriminate H|]. cbn [input] in *. destruct (utf8_read_char buf) as [[csz cp]| | |]; cbn [bind] in *; try discriminate H.
  destruct csz as [|csz].
  - apply Ok_inj in H. injection H as <- <-. exists (fun d => d). split; [apply adds_id|]. auto.
  - destruct (char_adds (S csz) cp) as (f & ok & Hf & Ef). rewrite Ef in H. destruct ok.
    + apply IH in H as (g & Hg & E1 & E2). set (h := fun d : dstate => if (t =? 0)%N then d else vemit (VSleep t) d).
      assert (Hh : adds h) by (unfold h; destruct (t =? 0)%N; [apply adds_id|apply adds_emit]).
      exists (fun d => g (h (f d))). split; [exact (adds_comp _ _ (adds_comp _ _ Hf Hh) Hg)|]. split; [exact E1|]. intros e. rewrite Ef. exact (E2 (h (f e))).
    + apply Ok_inj in H. injection H as <- <-. exists f. split; [exact Hf|]. split; [reflexivity|]. intros e. now rewrite Ef.
Qed.
Lemma play_paper os : forall d, paper (play os d) = rev (flat_map (fun o => match o with OKey _ _ | OSleep _ => carried o | _ => [] end) os) ++ paper d.
Proof.
  induction os as [|o os IH]; intros d; [reflexivity|]. cbn [play flat_map]. rewrite rev_app_distr, <- app_assoc.
  destruct o; rewrite IH; try reflexivity.
  rewrite paper_key. f_equal. cbn [carried]. destruct (wheel _); reflexivity.
Qed.
Lemma play_ents os : forall d, same_ents d (play os d).
Proof.
  induction os as [|o os IH]; intros d; [repeat split|]. cbn [play].
  assert (T : forall a b c, same_ents a b -> same_ents b c -> same_ents a c).
  { intros a b c (A1 & A2 & A3 & A4 & A5) (B1 & B2 & B3 & B4 & B5). repeat split; congruence. }
  destruct o; try apply IH; (eapply T; [|apply IH]); [apply dsend_ents|repeat split].
Qed.
Lemma typing_ok wr con m texts grabs d d' : handle_client wr con m texts grabs d = Ok d' -> taken m = true -> (i_type m = IInput \/ i_type m = IMacro) ->
  same_ents d d' /\ exists vs, types m vs /\ paper d' = rev vs ++ paper d.
Proof.
  unfold taken, types. rewrite andb_true_iff, N.ltb_lt, N.leb_le. intros H [T1 T2] Ht. unfold handle_client in *. cbv zeta in *.
  rewrite (proj2 (N.leb_gt 4096 (i_sz m)) T1), (proj2 (N.ltb_ge 1000000 (i_timeout m)) T2) in *. destruct Ht as [Ht|Ht]; rewrite Ht in *.
  - destruct (input _ _ _ _) as [[d1 ok]| | |] eqn:E; cbn [bind] in H; try discriminate H. apply Ok_inj in H. subst d'.
    apply input_adds in E as (f & [xs Hf] & -> & E2). rewrite !Hf. split; [repeat split|]. exists (rev (filter written xs)). split.
    + exists (vemit (VReply 0 ok) (f (d_init []))). rewrite E2. cbn [bind]. split; [reflexivity|]. rewrite Hf, rev_involutive. cbn [vemit d_out set_d_out filter written d_init].
      now rewrite app_nil_r.
    + rewrite rev_involutive. unfold paper. cbn [vemit d_out set_d_out filter written]. now rewrite filter_app.
  - destruct (macro_parse _) as [[mac|]| | |]; cbn [bind] in *; try discriminate H; apply Ok_inj in H; subst d'.
    + split; [exact (play_ents _ d)|]. eexists. split; [eexists; split; [reflexivity|]|].
      * match goal with |- filter written (d_out (vemit ?v ?y)) = _ => change (filter written (d_out (vemit v y))) with (paper (vemit v y)) end.
        rewrite paper_silent by reflexivity. rewrite play_paper. change (paper (d_init [])) with (@nil vev). rewrite app_nil_r. reflexivity.
      * rewrite paper_silent by reflexivity. now rewrite play_paper.
    + split; [repeat split|]. exists []. split; [eexists; split; reflexivity|]. now rewrite paper_silent.
Qed.

(* ---- a reload ------------------------------------------------------------------------------------ *)
Lemma load_readable texts clock : forall acc ents, load_files texts clock acc = Ok ents ->
  ents = map (fun c => new_keyboard c clock) (readable texts) ++ acc.
Proof.
  unfold readable. induction texts as [|t r IH]; intros acc ents H.
  - cbn [load_files] in H. apply Ok_inj in H. subst. reflexivity.
  - rewrite load_cons in H. cbn [flat_map]. destruct (config_parse t) as [[c|]| | |] eqn:E; cbn [bind] in H; try discriminate H; apply IH in H; rewrite H.
    + cbn [app rev]. rewrite map_app, <- app_assoc. reflexivity.
    + reflexivity.
Qed.
Lemma readable_inv texts c : In c (readable texts) -> inv c.
Proof.
  unfold readable. rewrite <- in_rev, in_flat_map. intros (t & _ & H). destruct (config_parse t) as [[c1|]| | |] eqn:E; try destruct H as [<-|[]]; try contradiction.
  exact (config_parse_inv _ _ E).
Qed.
Lemma clear_other d i j : i <> j -> d_ks (clear_key d i) (N.of_nat j) = d_ks d (N.of_nat j).
Proof.
  intros H. unfold clear_key. destruct (d_ks d (N.of_nat i)); [|reflexivity]. cbn [d_ks set_d_ks vemit set_d_out]. unfold fupd. destruct (N.eqb_spec (N.of_nat j) (N.of_nat i)); [lia|reflexivity].
Qed.
Lemma clear_keys_paper l : NoDup l -> forall d, paper (fold_left clear_key l d) = rev (map (fun i => VKey (N.of_nat i) false) (filter (fun i => d_ks d (N.of_nat i)) l)) ++ paper d.
Proof.
  induction 1 as [|i l Hi Hl IH]; intros d; [reflexivity|]. cbn [fold_left filter]. rewrite IH.
  replace (filter (fun j => d_ks (clear_key d i) (N.of_nat j)) l) with (filter (fun j => d_ks d (N.of_nat j)) l).
  - unfold clear_key. destruct (d_ks d (N.of_nat i)); [|reflexivity]. cbn [map rev]. rewrite <- app_assoc. reflexivity.
  - apply filter_ext_in. intros j Hj. symmetry. apply clear_other. intros ->. contradiction.
Qed.
Lemma clear_paper d : exists vs, Forall release vs /\ NoDup vs /\ paper (clear_vkbd d) = rev vs ++ paper d.
Proof.
  eexists. split; [|split; [|unfold clear_vkbd; apply clear_keys_paper, seq_NoDup]].
  - apply Forall_forall. intros v Hv. apply in_map_iff in Hv as (i & <- & _). exact Logic.I.
  - apply FinFun.Injective_map_NoDup; [|apply NoDup_filter, seq_NoDup]. intros x y E. injection E as E. lia.
Qed.
Lemma vheld_paper l x : vheld (filter written l) x = vheld l x.
Proof. induction l as [|v l IH]; [reflexivity|]. cbn [filter]. destruct v; cbn [written vheld]; try exact IH. now rewrite IH. Qed.

(* ---- one keyboard and its machine ------------------------------------------------------------------ *)
Record paired (clock : Z) (k : kbd) (x : full) : Prop := Paired {
  b_clock : (k_clock k <= clock)%Z;
  b_V : V (k_cfg k) x k;
  b_todo : g_todo x = [];
  b_try : g_try x = Replaying -> False;
  b_inv : inv (k_cfg k);
  b_inv0 : inv (k_orig k);
  b_follows : follows (k_orig k) (k_cfg k);
  b_mix : unmixed (k_cfg k);
  b_mix0 : unmixed (k_orig k);
  b_swap : swapping (k_cfg k) = swapping (k_orig k) }.
Lemma paired_new c clk : inv c -> unmixed c -> (dawn c <= clk)%Z -> paired clk (new_keyboard c clk) (start_all c).
Proof.
  intros I U D. assert (E1 : k_cfg (new_keyboard c clk) = c) by reflexivity. assert (E2 : k_orig (new_keyboard c clk) = c) by reflexivity.
  constructor; rewrite ?E1, ?E2; try assumption; try reflexivity; try (apply follows_refl); first [exact (start_V c clk D)|discriminate|idtac].
Qed.
Lemma over_acts c l : forall s, (g_try s = Replaying -> In Over (g_todo s)) -> g_try (fold_left (act_all c) l s) = Replaying -> In Over (g_todo (fold_left (act_all c) l s)).
Proof. induction l as [|i l IH]; intros s H; [exact H|]. cbn [fold_left]. apply IH. now apply over_act. Qed.
Lemma paired_event clock fuel k x e k1 t : paired clock k x -> process_event fuel (set_k_clock clock k) (ev_code e) (ev_pressed e) (ev_time e) = Ok (k1, t) ->
  (forall l, given l = [] -> length (m_shots (g_m x)) < 200 /\ length (m_shots (g_m (attends_all (k_cfg k) x e l))) < 200) ->
  exists l, given l = [] /\ g_todo (attends_all (k_cfg k) x e l) = [] /\ k_cfg k1 = k_cfg k /\ k_orig k1 = k_orig k
    /\ forall clock', (k_clock k1 <= clock')%Z -> paired clock' k1 (attends_all (k_cfg k) x e l).
Proof.
  intros [B1 B2 B3 B4 B5 B6 B7 B8 B9 B10] E Bd. destruct (event_cfg _ _ _ _ _ _ _ E) as [X1 X2]. cbn [k_cfg k_orig set_k_clock] in X1, X2.
  assert (Ea : forall l, attends_all (k_cfg k) x e l = fold_left (act_all (k_cfg k)) l (feed_all (k_cfg k) e x)) by (intros l; unfold attends_all; cbn [fold_left]; unfold act_all at 2; now rewrite B3).
  assert (Wk : V (k_cfg k) x (set_k_clock clock k)) by (eapply outside_V; [exact B2|now apply out_clock]).
  assert (En : entire (k_cfg k)) by (apply class_ok; [apply B5|exact B8]).
  destruct (every_event (k_cfg k) En fuel x (set_k_clock clock k) e k1 t Wk (proj1 (Bd [] eq_refl))) as (l & Gl & W1 & Tl).
  { intros l Gl. rewrite <- Ea. now apply Bd. }
  { exact E. }
  rewrite <- Ea in W1, Tl. rewrite B3 in Tl. exists l. split; [exact Gl|]. split; [exact Tl|]. split; [exact X1|]. split; [exact X2|].
  intros clock' Hc. constructor; rewrite ?X1, ?X2; try assumption. intros Hr.
  apply over_acts in Hr; [|intros Y; elim (B4 Y)]. fold (attends_all (k_cfg k) x e l) in Hr. rewrite Tl in Hr. exact Hr.
Qed.
Lemma paired_outside clock k x k' : paired clock k x -> outside k k' -> (k_clock k' <= clock)%Z -> paired clock k' x.
Proof.
  intros [B1 B2 B3 B4 B5 B6 B7 B8 B9 B10] Ou Hc. assert (X : k_cfg k' = k_cfg k /\ k_orig k' = k_orig k) by (destruct Ou; auto). destruct X as [X1 X2].
  constructor; rewrite ?X1, ?X2; try assumption. exact (outside_V _ _ k _ B2 Ou).
Qed.
Lemma paired_later clock clock' k x : (clock <= clock')%Z -> paired clock k x -> paired clock' k x.
Proof. intros H []. constructor; try assumption. lia. Qed.
Lemma paired_bound clock k x exp k' ok : paired clock k x -> kbd_eval k exp = Ok (k', ok) ->
  ~ striking k -> unmixed (k_cfg k') -> swapping (k_cfg k') = swapping (k_orig k) -> (exp <> bs "reset" -> fits (k_cfg k') k) ->
  paired clock k' x /\ k_orig k' = k_orig k /\ changed exp (k_orig k) (k_cfg k) (k_cfg k').
Proof.
  intros [B1 B2 B3 B4 B5 B6 B7 B8 B9 B10] E Hs Um Sw Ft. destruct (str_eqb exp (bs "reset")) eqn:Er.
  - apply str_eqb_true in Er. subst exp. unfold kbd_eval in E. change (str_eqb (bs "reset") (bs "reset")) with true in E. cbn iota in E. apply Ok_inj in E. injection E as <- _.
    destruct (follows_akin _ _ B7) as [_ Ak]; [exact B10|].
    assert (Fit : fits (k_orig k) k).
    { intros d Hd. apply (fitting_back _ _ d B7). apply general_fitting. exact (V_general _ _ _ _ B2 Hd). }
    split; [|split; [reflexivity|left; split; reflexivity]].
    constructor; cbn [k_cfg k_orig k_clock set_k_cfg]; try assumption; try reflexivity; [|apply follows_refl].
    apply (rebound _ _ Ak (proj1 B6) B9); try assumption. apply class_ok; [apply B6|exact B9].
  - assert (Hr : exp <> bs "reset") by (intros ->; discriminate Er).
    destruct (bind_follows _ _ _ _ B5 E Hr) as (Ek & Fw & Ik'). specialize (Ft Hr).
    destruct (follows_akin _ _ Fw) as [Ak _]; [congruence|].
    assert (Ch : changed exp (k_orig k) (k_cfg k) (k_cfg k')).
    { right. split; [exact Hr|]. unfold kbd_eval in E. rewrite Er in E. destruct (config_add_entry (k_cfg k) exp) as [[c' o]| | |]; cbn [bind] in E; try discriminate E.
      exists o. apply Ok_inj in E. injection E as <- _. reflexivity. }
    set (c' := k_cfg k') in *. clearbody c'. subst k'. split; [|split; [reflexivity|exact Ch]].
    constructor; cbn [k_cfg k_orig k_clock set_k_cfg]; try assumption; [|exact (follows_trans _ _ _ B7 Fw)].
    apply (rebound _ _ Ak (proj1 Ik') Um); try assumption. apply class_ok; [apply Ik'|exact Um].
Qed.

(* ---- the system --------------------------------------------------------------------------------------- *)
Definition now_used (d : dstate) : option nat := match d_active d with Some (g, j) => if Nat.eqb g (d_gen d) then Some j else None | None => None end.
Record ltied (a : option nat) (os : list order) (d : dstate) : Prop := LTied {
  l_sys : exists s, lives os s /\ map k_cfg (d_ents d) = z_now s /\ map k_orig (d_ents d) = z_read s /\ length (z_ms s) = length (d_ents d) /\ paper d = z_out s
    /\ forall j k x, nth_error (d_ents d) j = Some k -> nth_error (z_ms s) j = Some x -> paired (d_clock d) k x;
  l_use : a = now_used d }.
Lemma ltied_same a os d d' : d_ents d' = d_ents d -> d_clock d' = d_clock d -> paper d' = paper d -> d_active d' = d_active d -> d_gen d' = d_gen d ->
  ltied a os d -> ltied a os d'.
Proof. intros E1 E2 E3 E4 E5 [H1 H2]. constructor; unfold now_used in *; rewrite ?E1, ?E2, ?E3, ?E4, ?E5; assumption. Qed.
Lemma roomy_prefix a b : roomy (a ++ b) -> roomy a.
Proof. intros B os' j e rest s c x l E. apply (B os' j e (rest ++ b)). now rewrite <- E, <- app_assoc. Qed.
Lemma map_upd {A B} (f : A -> B) y : forall l j x, nth_error l j = Some x -> f y = f x -> map f (upd j y l) = map f l.
Proof.
  induction l as [|a l IH]; intros [|j] x H E; try discriminate H; cbn [upd map]; [injection H as ->; now rewrite E|]. now rewrite (IH _ _ H E).
Qed.
Lemma lrun_tied fuel wr p e a os d d' t : run_kbd fuel wr p e d = Ok (d', t) -> ltied a os d -> roomy (os ++ [Struck (snd p) e]) ->
  ltied a (os ++ [Struck (snd p) e]) d'.
Proof.
  intros H T Bd. apply run_inv in H as (k & k1 & d1 & E1 & E2 & E3 & ->). pose proof (deliver_paper _ _ _ _ _ _ E3) as Pa. apply deliver_ents in E3 as (A1 & A2 & A3 & A4 & A5).
  cbn [d_ents d_gen d_clock d_devs d_active set_d_clock] in A1, A2, A3, A4, A5. rewrite rev_involutive in Pa. destruct T as [(s & T1 & T2 & T3 & T4 & T5 & T6) T7].
  destruct p as [g j]. cbn [snd] in *. unfold deref in E1. cbn [fst snd] in E1. destruct (Nat.eqb g (d_gen d)); [|discriminate E1].
  destruct (nth_error (d_ents d) j) as [k0|] eqn:Ek; [|discriminate E1]. apply Ok_inj in E1. subst k0.
  assert (Lj : j < length (d_ents d)) by (apply nth_error_Some; rewrite Ek; discriminate).
  assert (Ec : nth_error (z_now s) j = Some (k_cfg k)) by (rewrite <- T2, nth_error_map, Ek; reflexivity).
  destruct (nth_error (z_ms s) j) as [x|] eqn:Ex; [|apply nth_error_None in Ex; lia].
  pose proof (T6 j k x Ek Ex) as Pk.
  assert (Kc : (d_clock d <= k_clock k1)%Z).
  { apply kbd_process_events_steps in E2. apply steps_clock in E2. exact E2. }
  apply one_call in E2 as [f E2].
  destruct (paired_event _ _ _ _ _ _ _ Pk E2) as (l & Gl & Tl & C1 & C2 & P1).
  { intros l Gl. exact (Bd os j e [] s (k_cfg k) x l eq_refl T1 Ec Ex Gl). }
  constructor; [|unfold now_used in *; cbn [store d_active d_gen set_d_ents]; now rewrite A5, A2]. cbn [store d_ents d_clock set_d_ents snd].
  eexists. split; [exact (lv_struck os s j (k_cfg k) x e l T1 Ec Ex Gl Tl)|]. cbn [z_now z_read z_ms z_out]. rewrite A1, A3.
  split; [now rewrite (map_upd _ _ _ _ _ Ek C1)|]. split; [now rewrite (map_upd _ _ _ _ _ Ek C2)|]. split; [now rewrite !upd_length|]. split.
  - change (paper (store (g, j) k1 d1)) with (paper d1). rewrite Pa. change (paper (set_d_clock (k_clock k1) d)) with (paper d). rewrite T5. f_equal.
    rewrite (V_log _ _ _ (b_V _ _ _ Pk)), (V_log _ _ _ (b_V _ _ _ (P1 _ (Z.le_refl _)))). reflexivity.
  - intros i ki xi. rewrite !nth_upd_error. destruct (Nat.eqb_spec j i) as [Ei|Hn].
    + subst i. rewrite T4. apply Nat.ltb_lt in Lj. rewrite Lj. cbn [andb]. intros [= <-] [= <-]. apply P1. lia.
    + cbn [andb]. intros Y1 Y2. apply (paired_later (d_clock d)); [lia|]. exact (T6 i ki xi Y1 Y2).
Qed.
Lemma lstore_tied p k s a os d : deref d p = Ok k -> s_sens s = s_sens (k_scroll k) -> s_active s = s_active (k_scroll k) ->
  ltied a os d -> ltied a os (store p (set_k_scroll s k) d).
Proof.
  intros E S1 S2 [(s0 & T1 & T2 & T3 & T4 & T5 & T6) T7]. unfold deref in E. destruct (Nat.eqb _ _); [|discriminate E]. destruct (nth_error (d_ents d) (snd p)) as [k0|] eqn:Ek; [|discriminate E].
  apply Ok_inj in E. subst k0. constructor; cbn [store d_ents d_clock set_d_ents]; [|exact T7].
  exists s0. split; [exact T1|]. split; [rewrite (map_upd k_cfg (set_k_scroll s k) _ _ _ Ek eq_refl); exact T2|]. split; [rewrite (map_upd k_orig (set_k_scroll s k) _ _ _ Ek eq_refl); exact T3|].
  split; [now rewrite upd_length|]. split; [exact T5|]. intros i ki xi. rewrite nth_upd_error. destruct (Nat.eqb_spec (snd p) i) as [Ei|Hn].
  - subst i. assert (L : snd p < length (d_ents d)) by (apply nth_error_Some; rewrite Ek; discriminate). apply Nat.ltb_lt in L. rewrite L. cbn [andb].
    intros [= <-] X. pose proof (T6 _ _ _ Ek X) as Pk. apply (paired_outside _ k); [exact Pk| |exact (b_clock _ _ _ Pk)].
    destruct s as [x y n b]. cbn [s_sens s_active] in *. subst n b. apply out_motion.
  - cbn [andb]. apply T6.
Qed.
Lemma lactive_tied a os d (p : kptr) : ltied a os d -> fst p = d_gen d -> ltied (Some (snd p)) os (set_d_active (Some p) d).
Proof.
  intros [T1 T4] G. constructor; try assumption. unfold now_used. cbn [set_d_active d_active d_gen]. destruct p as [g j]. cbn [fst snd] in *. subst g. now rewrite Nat.eqb_refl.
Qed.
Definition struck (x : nat * kev) : order := Struck (fst x) (snd x).
Lemma lquiet_tied fuel wr ev ts a os d d' t : event_handler fuel wr ev ts d = Ok (d', t) -> ptr_ok d -> undisturbed ev -> ltied a os d ->
  roomy (os ++ map struck (asked a d ev ts)) -> ltied (in_use a d ev) (os ++ map struck (asked a d ev ts)) d'.
Proof.
  intros H P U T B.
  refine (handler_tied (fun a evs d => ltied a (os ++ map struck evs) d) (fun evs => roomy (os ++ map struck evs)) _ _ _ _ _ _ fuel wr ev ts a [] d d' t H P U _ B).
  - intros x y. rewrite map_app, app_assoc. apply roomy_prefix.
  - intros a0 evs. apply ltied_same.
  - intros fuel0 wr0 p e a0 evs d1 d2 t1. rewrite map_app, app_assoc. apply lrun_tied.
  - intros p k s a0 evs d1. apply lstore_tied.
  - intros a0 evs d1 p. apply lactive_tied.
  - intros a0 evs d1 T1. exact (l_use _ _ _ T1).
  - cbn [map]. now rewrite app_nil_r.
Qed.

Lemma ltyped_tied wr con m texts grabs a os d d' : handle_client wr con m texts grabs d = Ok d' -> taken m = true -> (i_type m = IInput \/ i_type m = IMacro) ->
  ltied a os d -> ltied a (os ++ [Typed m]) d'.
Proof.
  intros H Tk Ty [(s & T1 & T2 & T3 & T4 & T5 & T6) T7]. destruct (typing_ok _ _ _ _ _ _ _ H Tk Ty) as [(A1 & A2 & A3 & A4 & A5) (vs & V1 & V2)].
  constructor; [|unfold now_used in *; now rewrite A5, A2]. eexists. split; [exact (lv_typed _ _ _ _ T1 V1)|]. cbn [z_now z_read z_ms z_out]. rewrite A1, A3, V2, T5. auto 7.
Qed.
Lemma eval_all_inv exp : forall ks ks' ok, eval_all ks exp = Ok (ks', ok) -> Forall2 (fun k k' => exists ok, kbd_eval k exp = Ok (k', ok)) ks ks'.
Proof.
  induction ks as [|k ks IH]; intros ks' ok H; cbn [eval_all] in H.
  - apply Ok_inj in H. injection H as <- _. constructor.
  - destruct (kbd_eval k exp) as [[k1 o1]| | |] eqn:E; cbn [bind] in H; try discriminate H. destruct (eval_all ks exp) as [[r o2]| | |] eqn:E2; cbn [bind] in H; try discriminate H.
    apply Ok_inj in H. injection H as <- _. constructor; eauto.
Qed.
Lemma lbound_tied exp a os d ks ok : eval_all (d_ents d) exp = Ok (ks, ok) -> ltied a os d ->
  (forall k k' ok, In k (d_ents d) -> kbd_eval k exp = Ok (k', ok) ->
     ~ striking k /\ unmixed (k_cfg k') /\ swapping (k_cfg k') = swapping (k_orig k) /\ (exp <> bs "reset" -> fits (k_cfg k') k)) ->
  ltied a (os ++ [Bound exp]) (set_d_ents ks d).
Proof.
  intros H [(s & T1 & T2 & T3 & T4 & T5 & T6) T7] Cs. apply eval_all_inv in H.
  assert (G : forall j k', nth_error ks j = Some k' -> exists k ok, nth_error (d_ents d) j = Some k /\ kbd_eval k exp = Ok (k', ok)).
  { clear - H. induction H as [|k k' l l' [o E] F IH]; intros [|j] q Hq; try discriminate Hq; cbn [nth_error] in *; [injection Hq as <-; eauto|auto]. }
  assert (Ln : length (d_ents d) = length ks) by (clear - H; induction H; cbn [List.length]; congruence).
  assert (P : forall j k', nth_error ks j = Some k' -> exists k x, nth_error (d_ents d) j = Some k /\ nth_error (z_ms s) j = Some x
     /\ paired (d_clock d) k' x /\ k_orig k' = k_orig k /\ changed exp (k_orig k) (k_cfg k) (k_cfg k')).
  { intros j k' Hj. destruct (G j k' Hj) as (k & o & E1 & E2). destruct (nth_error (z_ms s) j) as [x|] eqn:Ex.
    2:{ apply nth_error_None in Ex. rewrite T4 in Ex. apply nth_error_None in Ex. rewrite Ex in E1. discriminate E1. }
    destruct (Cs k k' o (nth_error_In _ _ E1) E2) as (Q1 & Q2 & Q3 & Q4). exists k, x.
    destruct (paired_bound _ _ _ _ _ _ (T6 j k x E1 Ex) E2 Q1 Q2 Q3 Q4) as (R1 & R2 & R3). auto 6. }
  assert (Eo : map k_orig ks = map k_orig (d_ents d)).
  { apply nth_error_ext_eq. intros j. rewrite !nth_error_map. destruct (nth_error ks j) as [k'|] eqn:Ek.
    - destruct (P j k' Ek) as (k & x & E1 & _ & _ & E2 & _). rewrite E1. cbn [option_map]. now rewrite E2.
    - apply nth_error_None in Ek. rewrite <- Ln in Ek. apply nth_error_None in Ek. now rewrite Ek. }
  constructor; [|exact T7]. eexists. split.
  - apply (lv_bound os s exp (map k_cfg ks) T1); [rewrite <- T2, !map_length; now symmetry|].
    intros j c0 c c'. rewrite <- T2, <- T3, !nth_error_map. destruct (nth_error ks j) as [k'|] eqn:Ek; [|discriminate 3].
    destruct (P j k' Ek) as (k & x & E1 & _ & _ & _ & E2). rewrite E1. cbn [option_map]. intros [= <-] [= <-] [= <-]. exact E2.
  - cbn [z_now z_read z_ms z_out d_ents d_clock set_d_ents]. split; [reflexivity|]. split; [now rewrite Eo|]. split; [lia|]. split; [exact T5|].
    intros j k' x Hj Hx. destruct (P j k' Hj) as (k & x' & _ & E2 & E3 & _). rewrite Hx in E2. injection E2 as <-. exact E3.
Qed.
Lemma lloaded_tied texts grabs a os d d' : reload texts grabs d = Ok d' -> hold_ok d -> match d_active d with Some (g, _) => g < S (d_gen d) | None => True end ->
  ltied a os d -> (forall c, In c (readable texts) -> unmixed c /\ (dawn c <= d_clock d)%Z) -> ltied None (os ++ [Loaded (readable texts)]) d'.
Proof.
  intros H Hd A [(s & T1 & T2 & T3 & T4 & T5 & T6) T7] Cs. pose proof (reload_clears _ _ _ _ H Hd) as Cl. apply reload_inv in H as (ents & L & ->).
  destruct (clear_ents (reload_base texts grabs d ents)) as (A1 & A2 & A3 & A4 & A5). destruct (clear_paper (reload_base texts grabs d ents)) as (vs & V1 & V2 & V3).
  set (d' := clear_vkbd (reload_base texts grabs d ents)) in *. clearbody d'.
  change (d_ents (reload_base texts grabs d ents)) with ents in A1. change (d_gen (reload_base texts grabs d ents)) with (S (d_gen d)) in A2.
  change (d_clock (reload_base texts grabs d ents)) with (d_clock d) in A3. change (d_active (reload_base texts grabs d ents)) with (d_active d) in A5.
  change (paper (reload_base texts grabs d ents)) with (paper d) in V3.
  apply load_readable in L. rewrite app_nil_r in L. pose proof (readable_inv texts) as Ri. set (cs := readable texts) in *. clearbody cs.
  constructor.
  - eexists. split; [apply (lv_loaded os s cs vs T1 V1 V2)|].
    + intros x. rewrite <- T5, <- V3. unfold paper. rewrite vheld_paper. apply Cl.
    + cbn [z_now z_read z_ms z_out]. rewrite A1, A3, L, V3, T5, !map_map, !map_length. split; [apply map_id|]. split; [apply map_id|]. split; [reflexivity|]. split; [reflexivity|].
      intros j k x. rewrite !nth_error_map. destruct (nth_error cs j) as [c|] eqn:Ec; [|discriminate 1]. cbn [option_map]. intros [= <-] [= <-].
      apply nth_error_In in Ec. apply paired_new; [now apply Ri|now apply Cs|now apply Cs].
  - unfold now_used. rewrite A5, A2. destruct (d_active d) as [[g j]|]; [|reflexivity]. destruct (Nat.eqb_spec g (S (d_gen d))); [lia|reflexivity].
Qed.
Lemma ptr_active d : ptr_ok d -> match d_active d with Some (g, _) => g < S (d_gen d) | None => True end.
Proof.
  intros Pd. pose proof (po_active _ Pd) as Pa. destruct (d_active d) as [[g' j]|]; [|exact Logic.I].
  destruct (Pa (g', j) eq_refl) as [X|[X _]]; cbn [fst] in X; lia.
Qed.
Lemma hold_times ts t d : hold_ok d -> hold_ok (set_d_times ts t d).
Proof. intros H. exact H. Qed.
Lemma lhandler_tied fuel wr ev ts a os d d' t : event_handler fuel wr ev ts d = Ok (d', t) -> ptr_ok d -> hold_ok d -> considerate d ev -> ltied a os d ->
  roomy (os ++ ordered a d ev ts) -> ltied (used_next a d ev) (os ++ ordered a d ev ts) d'.
Proof.
  intros H P Hd Cs T B. destruct ev as [|i de|i grab|i|con m texts grabs].
  1-4: exact (lquiet_tied fuel wr _ ts a os d d' t H P Logic.I T B).
  unfold ordered, used_next, considerate in *. destruct (taken m) eqn:Tk.
  2:{ rewrite app_nil_r. unfold event_handler in H. cbv zeta in H. destruct (handle_client _ _ _ _ _ _) as [d1| | |] eqn:E; cbn [bind] in H; try discriminate H.
      apply Ok_inj in H. injection H as <- _. unfold handle_client, taken in *. cbv zeta in E. apply andb_false_iff in Tk. rewrite N.ltb_ge, N.leb_gt in Tk.
      eapply ltied_same; [..|exact T].
      all: destruct (N.leb_spec 4096 (i_sz m)); [apply Ok_inj in E; subst d1; reflexivity|]; destruct (N.ltb_spec 1000000 (i_timeout m)); [apply Ok_inj in E; subst d1; reflexivity|lia]. }
  assert (Q : (i_type m = IListen \/ i_type m = IOther) -> ltied a (os ++ []) d').
  { intros U. exact (lquiet_tied fuel wr (EvClient con m texts grabs) ts a os d d' t H P U T (ltac:(cbn [asked map]; rewrite app_nil_r; exact (roomy_prefix _ _ B)))). }
  unfold event_handler in H. cbv zeta in H. set (t0 := Z.max 0 (d_timeout d - (ts - d_last d))) in *. clearbody t0.
  assert (T0 : ltied a os (set_d_times ts t0 d)) by (eapply ltied_same; [..|exact T]; reflexivity).
  assert (P0 : match d_active (set_d_times ts t0 d) with Some (g, _) => g < S (d_gen (set_d_times ts t0 d)) | None => True end) by exact (ptr_active d P).
  assert (H0 : hold_ok (set_d_times ts t0 d)) by now apply hold_times.
  assert (E0 : d_ents (set_d_times ts t0 d) = d_ents d) by reflexivity. assert (E1 : d_clock (set_d_times ts t0 d) = d_clock d) by reflexivity.
  set (d0 := set_d_times ts t0 d) in *. clearbody d0. rewrite <- E0, <- E1 in Cs. clear T P Hd E0 E1.
  destruct (handle_client _ _ _ _ _ _) as [d1| | |] eqn:E; cbn [bind] in H; try discriminate H. apply Ok_inj in H. injection H as <- _.
  assert (Ti : forall a os x t1, ltied a os x -> ltied a os (set_d_times ts t1 x)) by (intros; eapply ltied_same; [..|eassumption]; reflexivity).
  destruct (i_type m) eqn:Ty.
  all: try (apply Q; auto; fail); try (apply Ti; eapply ltyped_tied; eauto; fail).
  all: unfold handle_client, taken in *; cbv zeta in E; apply andb_true_iff in Tk as [K1 K2]; apply N.ltb_lt in K1; apply N.leb_le in K2;
    rewrite (proj2 (N.leb_gt 4096 (i_sz m)) K1), (proj2 (N.ltb_ge 1000000 (i_timeout m)) K2), Ty in E.
  - destruct (eval_all _ _) as [[ks ok]| | |] eqn:Ee; cbn [bind] in E; try discriminate E. apply Ok_inj in E. subst d1. apply Ti.
    eapply ltied_same; [..|exact (lbound_tied _ _ _ _ _ _ Ee T0 Cs)]; reflexivity.
  - destruct (reload texts grabs d0) as [d2| | |] eqn:Ee; cbn [bind] in E; try discriminate E. apply Ok_inj in E. subst d1. apply Ti.
    eapply ltied_same; [..|exact (lloaded_tied _ _ _ _ _ _ Ee H0 P0 T0 Cs)]; reflexivity.
Qed.
Definition used_after (a : option nat) (l : list (dstate * event * Z)) : option nat :=
  fold_left (fun a (x : dstate * event * Z) => used_next a (fst (fst x)) (snd (fst x))) l a.
Lemma orders_app p : forall a q, orders a (p ++ q) = orders a p ++ orders (used_after a p) q.
Proof.
  unfold used_after. induction p as [|[[d ev] ts] p IH]; intros a q; [reflexivity|]. cbn [app orders fold_left fst snd]. now rewrite IH, app_assoc.
Qed.
Lemma linked_living fuel wr d0 cl d os0 :
  linked fuel wr d0 cl d -> (forall d ev ts t, In (d, ev, ts, t) cl -> ptr_ok d /\ hold_ok d /\ considerate d ev) ->
  ltied None os0 d0 -> roomy (os0 ++ orders None (map fst (rev cl))) ->
  ltied (used_after None (map fst (rev cl))) (os0 ++ orders None (map fst (rev cl))) d.
Proof.
  induction 1 as [|cl d v H IH|cl d ev ts t d' H IH E]; intros Q T B.
  - cbn [rev map orders]. now rewrite app_nil_r.
  - eapply ltied_same; [..|exact (IH Q T B)]; reflexivity.
  - cbn [rev] in *. rewrite map_app, orders_app in *. unfold used_after at 1. rewrite fold_left_app. cbn [map fst orders fold_left snd] in *. rewrite app_nil_r in *. rewrite app_assoc in *.
    destruct (Q d ev ts t (or_introl eq_refl)) as (P & Hd & Cs).
    apply (lhandler_tied fuel wr ev ts _ _ d d' t E P Hd Cs); [|exact B].
    apply IH; [intros; apply (Q d1 ev0 ts0 t0); now right|exact T|]. eapply roomy_prefix; eauto.
Qed.
Lemma from_runs fuel wr texts l : runs_from fuel wr texts l -> runs fuel wr l.
Proof. induction 1; [eapply runs_start; eauto|eapply runs_round; eauto]. Qed.
Lemma runs_has fuel wr l : runs fuel wr l -> exists texts, runs_from fuel wr texts l.
Proof. induction 1 as [texts devs grabs ts l Hf H|r l l' Hr [texts IH] Hf H]; exists texts; [eapply rf_start; eauto|eapply rf_round; eauto]. Qed.
Lemma from_linked fuel wr texts l : runs_from fuel wr texts l -> exists grabs d0, reload texts grabs (d_init []) = Ok d0 /\ linkedl fuel wr d0 l.
Proof.
  induction 1 as [devs grabs ts l Hf H|r l l' Hr IH Hf H].
  - unfold Daemon.start in H. destruct (reload _ _ _) as [d| | |] eqn:Er; cbn [bind] in H; try discriminate H.
    destruct (Daemon.calls _ _ _ _ _) as [l1| | |] eqn:E; cbn [bind] in H; try discriminate H. apply Ok_inj in H. subst.
    exists grabs, d. split; [exact Er|]. change (linkedl fuel wr d l1). eapply calls_linked; [exact E|]. unfold linkedl. cbn [lp_calls lp_d]. apply ln_devs, ln_none.
  - destruct IH as (grabs & d0 & E0 & L). exists grabs, d0. split; [exact E0|]. eapply round_linked; eauto.
Qed.
Lemma init_tied : ltied None [] (d_init []).
Proof.
  constructor; [|reflexivity]. exists (Living [] [] [] []). split; [apply lv_begin|]. repeat (split; [reflexivity|]). intros [|j] k x H; discriminate H.
Qed.
Lemma init_hold : hold_ok (d_init []).
Proof. intros c H. discriminate H. Qed.
Lemma runs_living fuel wr texts l : runs_from fuel wr texts l ->
  (forall c, In c (readable texts) -> unmixed c /\ (dawn c <= 1)%Z) -> (forall d ev ts, In (d, ev, ts) (calls_in l) -> considerate d ev) ->
  roomy (Loaded (readable texts) :: orders None (calls_in l)) ->
  ltied (used_after None (calls_in l)) (Loaded (readable texts) :: orders None (calls_in l)) (lp_d l).
Proof.
  intros R St Cs B. pose proof (from_runs _ _ _ _ R) as R0. destruct (from_linked _ _ _ _ R) as (grabs & d0 & E0 & L).
  pose proof (proj2 (runs_ptr _ _ _ R0)) as P. pose proof (proj2 (runs_hold _ _ _ R0)) as Hd.
  pose proof (lloaded_tied _ _ _ _ _ _ E0 init_hold Logic.I init_tied St) as T. cbn [app] in T.
  apply (linked_living fuel wr d0 (lp_calls l) (lp_d l) [Loaded (readable texts)] L); [|exact T|exact B].
  intros d ev ts t Hi. split; [exact (proj1 (P d ev ts t Hi))|]. split; [exact (proj1 (Hd d ev ts t Hi))|].
  apply (Cs d ev ts). unfold calls_in. apply in_map_iff. exists (d, ev, ts, t). split; [reflexivity|]. now apply -> in_rev.
Qed.

(* ---- no oneshot keys ---------------------------------------------------------------------------------- *)
(* the bindings in force and as read, after these orders *)
Definition bound_to (exp : str) (c0 c : config) : config :=
  if str_eqb exp (bs "reset") then c0 else match config_add_entry c exp with Ok (c', _) => c' | _ => c end.
Definition in_force (x : list config * list config) (o : order) : list config * list config :=
  match o with
  | Struck _ _ | Typed _ => x
  | Bound exp => (map (fun y => bound_to exp (fst y) (snd y)) (combine (snd x) (fst x)), snd x)
  | Loaded cs => (cs, cs)
  end.
Lemma lives_force os s : lives os s -> fold_left in_force os ([], []) = (z_now s, z_read s) /\ length (z_now s) = length (z_read s) /\ length (z_ms s) = length (z_now s).
Proof.
  induction 1 as [|os s j c x e l H IH Hc Hx Gl Tl|os s m vs H IH Ht|os s exp cs H IH Hl Hc|os s cs vs H IH F N Hh]; [auto| | | |]; rewrite fold_left_app; cbn [fold_left]; destruct IH as (-> & L1 & L2); cbn [in_force fst snd z_now z_read z_ms].
  - rewrite upd_length. auto.
  - auto.
  - split; [|split; congruence]. f_equal. apply nth_error_ext_eq. intros j. rewrite nth_error_map.
    destruct (nth_error cs j) as [c'|] eqn:E3.
    + assert (Lj : j < length cs) by (apply nth_error_Some; rewrite E3; discriminate).
      destruct (nth_error (z_now s) j) as [c|] eqn:E2; [|apply nth_error_None in E2; lia]. destruct (nth_error (z_read s) j) as [c0|] eqn:E1; [|apply nth_error_None in E1; lia].
      assert (Ecb : nth_error (combine (z_read s) (z_now s)) j = Some (c0, c)).
      { clear - E1 E2. revert E1 E2. generalize (z_read s) as a, (z_now s) as b. induction j as [|j IH]; intros [|x a] [|y b] E1 E2; try discriminate E1; try discriminate E2; cbn [nth_error combine] in *; [congruence|now apply IH]. }
      rewrite Ecb. cbn [option_map fst snd]. f_equal. unfold bound_to. destruct (Hc j c0 c c' E1 E2 E3) as [[-> ->]|[Hn [ok Ea]]]; [reflexivity|].
      destruct (str_eqb exp (bs "reset")) eqn:Er; [apply str_eqb_true in Er; contradiction|]. now rewrite Ea.
    + apply nth_error_None in E3. replace (nth_error (combine (z_read s) (z_now s)) j) with (@None (config * config)); [reflexivity|]. symmetry. apply nth_error_None. rewrite combine_length. lia.
  - split; [reflexivity|]. split; [reflexivity|]. apply map_length.
Qed.
Lemma shotless_check os : (forall a b, a ++ b = os -> forall c, In c (fst (fold_left in_force a ([], []))) -> shot_free c) -> shotless os.
Proof. intros H a b s E L c Hc. apply (H a b E). destruct (lives_force _ _ L) as (-> & _). exact Hc. Qed.
Lemma lives_unshot os s : shotless os -> lives os s -> forall x, In x (z_ms s) -> unshot x.
Proof.
  intros Nc H. induction H as [|os s j c x e l H IH Hc Hx Gl Tl|os s m vs H IH Ht|os s exp cs H IH Hl Hc|os s cs vs H IH F N Hh]; cbn [z_ms]; [intros ? []| | | |].
  - assert (No : shotless os) by (intros a b s0 E; apply (Nc a (b ++ [Struck j e])); now rewrite app_assoc, E).
    intros y Hy. apply In_nth_error in Hy as [i Hi]. rewrite nth_upd_error in Hi. destruct (Nat.eqb j i && _) eqn:Eb.
    + injection Hi as <-. apply (unshot_act c (Given e :: l)); [|apply (IH No); now apply nth_error_In in Hx].
      apply (Nc os [Struck j e] s eq_refl H). now apply nth_error_In in Hc.
    + apply (IH No). now apply nth_error_In in Hi.
  - apply IH. intros a b s0 E. apply (Nc a (b ++ [Typed m])). now rewrite app_assoc, E.
  - apply IH. intros a b s0 E. apply (Nc a (b ++ [Bound exp])). now rewrite app_assoc, E.
  - intros y Hy. apply in_map_iff in Hy as (c & <- & Hc). destruct (Nc (os ++ [Loaded cs]) [] _ (app_nil_r _) (lv_loaded os s cs vs H F N Hh) c) as [N1 N2].
    + exact Hc.
    + exact (unshot_turns c N1 N2 []).
Qed.
Lemma shotless_roomy os : shotless os -> roomy os.
Proof.
  intros Nc os' j e rest s c x l E H Hc Hx _.
  assert (No : shotless os') by (intros a b s0 E'; apply (Nc a (b ++ Struck j e :: rest)); now rewrite app_assoc, E').
  pose proof (lives_unshot _ _ No H x (nth_error_In _ _ Hx)) as S0.
  assert (Nj : shot_free c). { apply (Nc os' (Struck j e :: rest) s E H). now apply nth_error_In in Hc. }
  split; [destruct S0 as [[-> _] _]; cbn; lia|].
  destruct (unshot_act c (Given e :: l) Nj x S0) as [[S1 _] _]. unfold attends_all. rewrite S1. cbn. lia.
Qed.
