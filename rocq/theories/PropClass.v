(* C79: which configurations the reference machine of C77 is about. *)
From Verif Require Import Base Lib Types Keys MacroExec Kbd Str MacroParse Config Hist ExTools ParseWf WfHist Match Device Daemon SpecWf SpecMods SpecLookup LookupProofs SpecDefer
  SpecDaemon DaemonProofs EntryProofs BoundProofs PropDaemon KeptProofs PropDefer SpecRef RefRun PropRef SpecWait WaitProofs PropWait SpecFull FullProofs PropFull
  SpecSystem SystemProofs PropSystem SpecEntire EntireProofs PropEntire.
From Coq Require Import String.
Local Open Scope nat_scope.
Local Open Scope list_scope.
Local Notation length := List.length.

Section Class.
Variable c : config.
Hypothesis W : wf_config c.
Local Notation ok i := (ok_desc c (N.of_nat i) (N.of_nat (length (c_macros c))) (N.of_nat (length (c_cmds c)))).

Lemma the_in i : i < length (c_layers c) -> In (the c i) (c_layers c).
Proof. intros H. now apply nth_In. Qed.
Lemma ok_more i j d : i <= j -> ok i d -> ok j d.
Proof. intros H. apply ok_desc_nd; lia. Qed.
Lemma appears_ok d : appears c d -> ok (length (c_descs c)) d.
Proof.
  intros [(i & code & <-)|[I|(i & ch & I & <-)]].
  - destruct (Nat.lt_ge_cases i (length (c_layers c))) as [L|L].
    + apply (wl_keymap c _ (wf_layers c W _ (the_in i L))).
    + unfold the. rewrite nth_overflow by exact L. exact Logic.I.
  - apply (In_nth _ _ DNone) in I as (i & L & <-). apply (ok_more i); [lia|]. apply (wf_descs c W i L).
  - apply (wl_chord c _ (wf_layers c W _ (the_chord _ _ _ I)) ch I).
Qed.
Lemma appears_nth n : n < length (c_descs c) -> appears c (action c n).
Proof. intros L. right. left. now apply nth_In. Qed.
Lemma swap_dec d : swap_action d = true <-> is_swap d.
Proof. destruct d; cbn; split; intros; try discriminate; auto. Qed.
Lemma swapping_appears : swapping c = true <-> exists d, appears c d /\ is_swap d.
Proof.
  unfold swapping. rewrite orb_true_iff, !existsb_exists. split.
  - intros [(d & I & E)|(i & I & E)].
    + exists d. split; [right; now left|now apply swap_dec].
    + rewrite orb_true_iff, !existsb_exists in E. destruct E as [(x & _ & E)|(ch & I2 & E)].
      * exists (ly_keymap (the c i) (N.of_nat x)). split; [left; eauto|now apply swap_dec].
      * exists (ch_d ch). split; [right; right; eauto|now apply swap_dec].
  - intros (d & [(i & code & <-)|[I|(i & ch & I & <-)]] & E); apply swap_dec in E.
    + right. destruct (Nat.lt_ge_cases i (length (c_layers c))) as [L|L].
      * exists i. split; [apply in_seq; lia|]. apply orb_true_iff. left. apply existsb_exists.
        destruct (N.lt_ge_cases code 256) as [H|H].
        -- exists (N.to_nat code). rewrite N2Nat.id. split; [apply in_seq; lia|exact E].
        -- rewrite (wl_codes c _ (wf_layers c W _ (the_in i L)) code H) in E. discriminate.
      * unfold the in E. rewrite nth_overflow in E by exact L. discriminate.
    + left. eauto.
    + right. exists i. split.
      * apply in_seq. destruct (Nat.lt_ge_cases i (length (c_layers c))) as [L|L]; [lia|]. unfold the in I. rewrite nth_overflow in I by exact L. destruct I.
      * apply orb_true_iff. right. apply existsb_exists. eauto.
Qed.
Lemma ref_layer l : layer_ref c l -> l <> 0 /\ a_layer c l.
Proof. intros (A & B & C). split; [exact B|]. split; [exact A|exact C]. Qed.

Section Ordinary.
Hypothesis H1 : forall d d', appears c d -> appears c d' -> is_toggle d -> is_swap d' -> False.
Hypothesis H2 : forall l a, appears c (DOverload l a) -> ~ is_later (action c a) /\ ~ is_idle (action c a).
Hypothesis H3 : forall a b t, appears c (DOverloadI a b t) -> ~ is_idle (action c a) /\ ~ is_idle (action c b).

Lemma no_swap d : appears c d -> is_toggle d -> swapping c = false.
Proof.
  intros A T. destruct (swapping c) eqn:E; [|reflexivity]. apply swapping_appears in E as (d' & A' & S'). elim (H1 d d' A A' T S').
Qed.
Lemma plain_ok d : appears c d -> plain_action c d \/ match d with DLayer _ | DLayerM _ _ | DOneshot _ | DOneshotM _ _ | DOverload _ _ => True | _ => is_later d \/ is_idle d end.
Proof.
  intros A. pose proof (appears_ok d A) as O. destruct d; cbn [plain_action is_later is_idle] in *; auto; left; cbn [ok_desc] in O.
  - split; [now apply ref_layer|]. apply swapping_appears. eexists; split; [exact A|exact Logic.I].
  - split; [now apply ref_layer|]. apply swapping_appears. eexists; split; [exact A|exact Logic.I].
  - destruct O as [O [O'|O']]; [now left|right; now split].
  - split; [now apply ref_layer|]. exact (no_swap _ A Logic.I).
  - split; [now apply ref_layer|]. exact (no_swap _ A Logic.I).
Qed.
Lemma tap_ok : forall n a, a < length (c_descs c) -> a <= n -> ~ is_later (action c a) -> ~ is_idle (action c a) -> tap_action c n (action c a).
Proof.
  induction n as [n IH] using lt_wf_ind. intros a La Ln Hl Hi. pose proof (appears_nth a La) as A.
  pose proof (plain_ok _ A) as P. pose proof (appears_ok _ A) as O. pose proof (proj1 (wf_descs c W a La)) as O2. fold (action c a) in O2.
  destruct (action c a) eqn:E;
    try (destruct P as [P|P]; [destruct n; exact P|cbn in P, Hl, Hi; tauto]); cbn [ok_desc] in O, O2.
  - destruct n; cbn; now apply ref_layer.
  - destruct n; cbn; now apply ref_layer.
  - destruct n; cbn; now apply ref_layer.
  - destruct n; cbn; now apply ref_layer.
  - destruct O2 as [O1 O2]. destruct n as [|n]; [lia|]. cbn [tap_action]. split; [now apply ref_layer|].
    destruct (H2 _ _ A) as [N1 N2]. apply (IH n); [lia|lia|lia|exact N1|exact N2].
Qed.
Lemma settled_ok d : appears c d -> ~ is_idle d -> settled_action c d.
Proof.
  intros A Hi. pose proof (plain_ok _ A) as P. pose proof (appears_ok _ A) as O.
  destruct d; try (destruct P as [P|P]; [left; exact P|cbn in P, Hi; tauto]); cbn [ok_desc] in O; try (left; now apply ref_layer).
  - left. destruct O as [O1 O2]. split; [now apply ref_layer|]. destruct (H2 _ _ A) as [N1 N2]. apply (tap_ok _ a); [lia|lia|exact N1|exact N2].
  - right. now apply ref_layer.
  - right. now apply ref_layer.
  - right. exact Logic.I.
Qed.
Lemma general_ok d : appears c d -> general_action c d.
Proof.
  intros A. pose proof (appears_ok _ A) as O. destruct d; try (apply settled_ok; [exact A|intros []]). cbn [ok_desc] in O. cbn [general_action].
  destruct (H3 _ _ _ A) as [N1 N2]. split; apply settled_ok; try assumption; apply appears_nth; lia.
Qed.
End Ordinary.
End Class.

Lemma class_ok c : wf_config c -> (entire c <-> unmixed c).
Proof.
  intros W. split.
  - intros (E1 & E2 & E3).
    assert (G : forall d, appears c d -> general_action c d).
    { intros d [(i & code & <-)|[I|(i & ch & I & <-)]]; [apply E1| |apply (E3 i ch I)]. apply (In_nth _ _ DNone) in I as (n & _ & <-). apply E2. }
    split; [|split].
    + intros d d' A A' T S'. assert (Sw : swapping c = true) by (apply (swapping_appears c W); eauto).
      apply G in A. destruct d; try contradiction T; destruct A as [A|A]; try contradiction A; destruct A as [_ A]; congruence.
    + intros l a A. apply G in A. destruct A as [A|A]; [|contradiction A]. destruct A as [_ A]. unfold action.
      destruct (nth a (c_descs c) DNone); cbn; try tauto; destruct (length (c_descs c)); try contradiction A; destruct A.
    + intros a b t A. apply G in A. destruct A as [A B]. unfold action. split.
      * destruct (nth a (c_descs c) DNone); cbn; try tauto; destruct A as [A|A]; destruct A.
      * destruct (nth b (c_descs c) DNone); cbn; try tauto; destruct B as [B|B]; destruct B.
  - intros (H1 & H2 & H3). split; [|split].
    + intros i code. apply (general_ok c W H1 H2 H3). left. eauto.
    + intros n. destruct (Nat.lt_ge_cases n (length (c_descs c))) as [L|L]; [apply (general_ok c W H1 H2 H3); now apply appears_nth|].
      unfold action. rewrite nth_overflow by exact L. left. exact Logic.I.
    + intros i ch I. split; [apply (general_ok c W H1 H2 H3); right; right; eauto|]. intros x Hx.
      pose proof (wl_keys c _ (wf_layers c W _ (the_chord _ _ _ I)) ch x I Hx). lia.
Qed.

(* For every configuration file that keyd accepts: C77 and C78 apply to it if and only if
   toggle and swap are not mixed, the tap of an overload is decided at once, and an idle
   overload does not lead to another one. *)
Theorem C79_class :
  forall text c, config_parse text = Ok (Some c) -> (entire c <-> unmixed c).
Proof. intros text c H. exact (class_ok c (proj1 (config_parse_inv _ _ H))). Qed.

(* From the text of a file to what is said. *)
Theorem C79_run :
  forall text c clk evs k,
    config_parse text = Ok (Some c) -> unmixed c -> (dawn c <= clk)%Z -> calls_of c clk evs k ->
    (forall l rest, given l ++ rest = evs -> length (m_shots (g_m (turns_all c l))) < 200) ->
    exists l, given l = evs /\ g_todo (turns_all c l) = []
      /\ k_out k = o_log (m_host (g_m (turns_all c l)))
      /\ (forall x, k_ks k x = o_down (m_host (g_m (turns_all c l))) x)
      /\ (forall i, l_active (k_ls k i) <> 0%N <-> lit (g_m (turns_all c l)) i = true).
Proof.
  intros text c clk evs k Hp Ho Hd Hc Hb. apply (C79_class text c Hp) in Ho.
  destruct (C77_run c clk evs k Ho Hd Hc Hb) as (l & A1 & A2 & A3 & A4 & A5 & _). exists l. auto.
Qed.

(* The configurations of a daemon are read from files, so this is all that is asked of them. *)
Lemma new_orig c clk : k_orig (new_keyboard c clk) = c.
Proof. reflexivity. Qed.
Lemma base_ents texts grabs d ents : d_ents (reload_base texts grabs d ents) = ents.
Proof. reflexivity. Qed.
Lemma cleared_configs d : configs (clear_vkbd d) = map k_orig (d_ents d).
Proof. unfold configs. destruct (clear_ents d) as (A1 & _). now rewrite A1. Qed.
Lemma fresh_class texts clk ents : load_files texts clk [] = Ok ents -> forall c, In c (map k_orig ents) -> exists text, In text texts /\ config_parse text = Ok (Some c).
Proof.
  intros L c Hc. apply in_map_iff in Hc as (k & Ek & Hk). destruct (load_fresh _ _ _ _ L k Hk) as [[]|(text & c1 & T & P & En)]. exists text. split; [exact T|].
  rewrite En, new_orig in Ek. now rewrite <- Ek.
Qed.
Lemma reload_class texts grabs d d' : reload texts grabs d = Ok d' -> forall c, In c (configs d') -> exists text, In text texts /\ config_parse text = Ok (Some c).
Proof.
  intros H. apply reload_inv in H as (ents & L & E). rewrite E, cleared_configs, base_ents. exact (fresh_class _ _ _ L).
Qed.
Theorem C79_written :
  forall fuel wr l,
    runs fuel wr l ->
    (forall d ev ts, In (d, ev, ts) (calls_in l) -> undisturbed ev) ->
    (forall c, In c (configs (lp_d l)) -> unmixed c /\ (dawn c <= 1)%Z) ->
    ample (configs (lp_d l)) (requests None (calls_in l)) ->
    exists s, obeys (configs (lp_d l)) (requests None (calls_in l)) s /\ filter written (d_out (lp_d l)) = y_out s.
Proof.
  intros fuel wr l R U Cm B. apply (C78_written fuel wr l R U); [|exact B]. intros c Hc. destruct (Cm c Hc) as [Ho Hd]. split; [|exact Hd].
  destruct (runs_linked fuel wr l R) as (texts & grabs & d0 & E0 & L).
  assert (U1 : forall d ev ts t, In (d, ev, ts, t) (lp_calls l) -> undisturbed ev).
  { intros d ev ts t Hi. apply (U d ev ts). unfold calls_in. apply in_map_iff. exists (d, ev, ts, t). split; [reflexivity|]. now apply -> in_rev. }
  pose proof (linked_origs _ _ _ _ _ L U1) as Eo. change (configs (lp_d l) = configs d0) in Eo. rewrite Eo in Hc.
  destruct (reload_class _ _ _ _ E0 c Hc) as (text & _ & P). apply (C79_class text c P). exact Ho.
Qed.
Theorem C79_reloaded :
  forall fuel wr l d0 ev ts t before after d1,
    runs fuel wr l ->
    lp_calls l = after ++ (d0, ev, ts, t) :: before ->
    reloading ev -> event_handler fuel wr ev ts d0 = Ok (d1, t) ->
    (forall d ev ts t, In (d, ev, ts, t) after -> undisturbed ev) ->
    (forall c, In c (configs d1) -> unmixed c /\ (dawn c <= d_clock d1)%Z) ->
    ample (configs d1) (requests None (map fst (rev after))) ->
    configs (lp_d l) = configs d1
    /\ exists s, obeys (configs d1) (requests None (map fst (rev after))) s
         /\ filter written (d_out (lp_d l)) = y_out s ++ filter written (d_out d1).
Proof.
  intros fuel wr l d0 ev ts t before after d1 R El Hr E U Cm B. apply (C78_reloaded fuel wr l d0 ev ts t before after d1 R El Hr E U); [|exact B].
  intros c Hc. destruct (Cm c Hc) as [Ho Hd]. split; [|exact Hd].
  assert (P : exists text, config_parse text = Ok (Some c)).
  { clear R El U Cm B Ho Hd. destruct ev as [| | | |con m x g]; try contradiction Hr. destruct Hr as (H1 & H2 & H3).
    unfold event_handler in E. cbv zeta in E. set (e0 := set_d_times ts _ d0) in E. clearbody e0.
    unfold handle_client in E. cbv zeta in E. rewrite (proj2 (N.leb_gt 4096 (i_sz m)) H2), (proj2 (N.ltb_ge 1000000 (i_timeout m)) H3), H1 in E.
    destruct (reload x g e0) as [e1| | |] eqn:Er; cbn [bind] in E; try discriminate E. apply Ok_inj in E. injection E as E _.
    assert (Ec : configs d1 = configs e1) by (rewrite <- E; reflexivity). rewrite Ec in Hc.
    destruct (reload_class _ _ _ _ Er c Hc) as (text & _ & P). eauto. }
  destruct P as [text P]. apply (C79_class text c P). exact Ho.
Qed.

Definition C79_all := (C79_class, C79_run, C79_written, C79_reloaded).
Print Assumptions C79_all.

(* Almost every kind of action at once, and a file outside: toggle and swap are mixed. *)
Definition ex79_text : str := bs "[main]
a = overload(nav, overload(num, oneshot(shift)))
s = overloadt2(nav, timeout(x, 100, layer(num)), 200)
d = overloadi(esc, overloadt(control, esc, 100), 150)
f = macro(x y z)
j = macro2(400, 50, macro(x y))
k = clearm(C-x)
l = togglem(num, x)
j+k = timeout(layer(nav), 300, esc)
q = setlayout(main)
w = scroll(5)
e = command(ls)
capslock = scrollt(3)
[nav:C]
j = down
s+d+f = macro(a 20ms b)
[num]
j = 1
[nav+num]
j = layerm(nav, C-c)
".
Definition ex79o_text : str := bs "[main]
a = toggle(nav)
[nav]
b = swap(num)
[num]
j = 1
".
Lemma not_unmixed c : (exists i j x y a b, ly_keymap (the c i) x = DToggle a /\ ly_keymap (the c j) y = DSwap b) -> ~ unmixed c.
Proof.
  intros (i & j & x & y & a & b & E1 & E2) (H & _). apply (H (DToggle a) (DSwap b)); [left; eauto|left; eauto|exact Logic.I|exact Logic.I].
Qed.
Example C79_example : config_parse ex79_text = Ok (Some (cfg_of ex79_text)) /\ unmixed (cfg_of ex79_text) /\ entire (cfg_of ex79_text)
  /\ config_parse ex79o_text = Ok (Some (cfg_of ex79o_text)) /\ ~ unmixed (cfg_of ex79o_text) /\ ~ entire (cfg_of ex79o_text).
Proof.
  assert (P1 : config_parse ex79_text = Ok (Some (cfg_of ex79_text))) by (apply parsesb_ok; vm_compute; reflexivity).
  assert (P2 : config_parse ex79o_text = Ok (Some (cfg_of ex79o_text))) by (apply parsesb_ok; vm_compute; reflexivity).
  assert (E1 : entire (cfg_of ex79_text)) by (apply entire_check; vm_compute; reflexivity).
  assert (E2 : ~ unmixed (cfg_of ex79o_text)).
  { apply not_unmixed. exists 0, 6, 30%N, 48%N, 6, 7. split; vm_compute; reflexivity. }
  split; [exact P1|]. split; [exact (proj1 (C79_class _ _ P1) E1)|]. split; [exact E1|]. split; [exact P2|]. split; [exact E2|].
  intros E3. exact (E2 (proj1 (C79_class _ _ P2) E3)).
Qed.
